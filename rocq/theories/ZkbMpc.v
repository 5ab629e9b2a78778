(** The MPC evaluations of LowMC in signer and verifier (ZKB++). *)

From Coq Require Import List NArith Arith Bool Btauto Lia ZifyBool ZifyNat ZifyN.
From Verif Require Import Base Params Env Spec LowMC Picnic1 BaseFacts ParamFacts LowMCFacts
  LowMCInj Hint.
Import ListNotations.

(** Decide all equality tests on naturals in the goal. *)
Ltac eqbs :=
  repeat match goal with
         | |- context [?a =? ?b] =>
             first [ replace (a =? b) with true by (symmetry; apply Nat.eqb_eq; lia)
                   | replace (a =? b) with false by (symmetry; apply Nat.eqb_neq; lia) ]
         end.

Definition nxt (j : nat) : nat := (j + 1) mod 3.

Lemma lt3 j : j < 3 -> j = 0 \/ j = 1 \/ j = 2.
Proof. lia. Qed.

Lemma nxt_lt j : nxt j < 3.
Proof. apply Nat.mod_upper_bound. lia. Qed.

Lemma ok_triM {A} (Q : nat -> A -> Prop) f :
  (forall j, j < 3 -> ok (f j) (Q j)) -> ok (triM f) (fun t => forall j, j < 3 -> Q j (tget t j)).
Proof.
  intros H. unfold triM.
  eapply ok_step; [apply H; lia|]. intros a Ha.
  eapply ok_step; [apply H; lia|]. intros b Hb.
  eapply ok_step; [apply H; lia|]. intros c Hc. simpl.
  intros j Hj. destruct (lt3 j Hj) as [-> | [-> | ->]]; auto.
Qed.

Lemma ok_duoM {A} (Q : nat -> A -> Prop) f :
  (forall j, j < 2 -> ok (f j) (Q j)) -> ok (duoM f) (fun t => forall j, j < 2 -> Q j (dget t j)).
Proof.
  intros H. unfold duoM.
  eapply ok_step; [apply H; lia|]. intros a Ha.
  eapply ok_step; [apply H; lia|]. intros b Hb. simpl.
  intros j Hj. assert (j = 0 \/ j = 1) as [-> | ->] by lia; auto.
Qed.

Lemma tri_ext {A} (t u : tri A) : (forall j, j < 3 -> tget t j = tget u j) -> t = u.
Proof.
  destruct t as [[a b] c], u as [[a' b'] c']. intros H.
  pose proof (H 0 ltac:(lia)). pose proof (H 1 ltac:(lia)). pose proof (H 2 ltac:(lia)).
  simpl in *. congruence.
Qed.

(** ** One gate *)
Lemma mpc_AND_spec in1 in2 (tape comm : tri bytes) pos :
  (forall j, j < 3 -> pos < 8 * length (tget tape j)) ->
  (forall j, j < 3 -> pos < 8 * length (tget comm j)) ->
  ok (mpc_AND in1 in2 tape comm pos) (fun '(out, comm', pos') =>
    pos' = S pos /\
    (forall j, j < 3 -> tget out j =
       andf (tget in1 j) (tget in2 j) (tget in1 (nxt j)) (tget in2 (nxt j))
            (bit (tget tape j) pos) (bit (tget tape (nxt j)) pos)) /\
    (forall j, j < 3 -> tget comm' j = set_bit (tget comm j) pos (tget out j))).
Proof.
  intros Ht Hc. unfold mpc_AND.
  eapply ok_step.
  { apply ok_triM with (Q := fun j b => b = bit (tget tape j) pos).
    intros j Hj. rewrite getBit_ok by (apply lt_div8; auto). reflexivity. }
  intros r Hr. cbv beta in Hr.
  eapply ok_step.
  { apply ok_triM with (Q := fun j (c : bytes) => c = set_bit (tget comm j) pos (mpc_AND_out in1 in2 r j)).
    intros j Hj. rewrite setBit_ok by (apply lt_div8; auto). reflexivity. }
  intros c' Hc'. cbv beta in Hc'. cbn [ok]. split; auto.
  assert (Ho : forall j, j < 3 -> tget (mpc_AND_out in1 in2 r 0, mpc_AND_out in1 in2 r 1,
                                       mpc_AND_out in1 in2 r 2) j = mpc_AND_out in1 in2 r j)
    by (intros j Hj; destruct (lt3 j Hj) as [-> | [-> | ->]]; reflexivity).
  split; intros j Hj; rewrite Ho by auto.
  - unfold mpc_AND_out. fold (nxt j). rewrite !Hr by (auto; apply nxt_lt). reflexivity.
  - rewrite Hc' by auto. reflexivity.
Qed.

Lemma mpc_AND_verify_spec in1 in2 (tape : duo bytes) (comm1 comm2 : bytes) pos :
  (forall j, j < 2 -> pos < 8 * length (dget tape j)) ->
  pos < 8 * length comm1 -> pos < 8 * length comm2 ->
  mpc_AND_verify in1 in2 tape comm1 comm2 pos =
  let o := andf (dget in1 0) (dget in2 0) (dget in1 1) (dget in2 1)
                (bit (dget tape 0) pos) (bit (dget tape 1) pos) in
  Ok ((o, bit comm2 pos), set_bit comm1 pos o, S pos).
Proof.
  intros Ht H1 H2. unfold mpc_AND_verify.
  rewrite !getBit_ok by (apply lt_div8; auto). cbn [bind].
  rewrite setBit_ok by (apply lt_div8; auto). reflexivity.
Qed.

(** ** One S-box of one share *)
Lemma sbox_write_spec st k base v h a b c ab bc ca :
  3 * k + 3 <= 8 * length st ->
  (forall i, bit st i = hsbox k base v h i) ->
  a = v (3 * k + 2) -> b = v (3 * k + 1) -> c = v (3 * k) ->
  ab = h (base + 3 * k) -> bc = h (base + 3 * k + 1) -> ca = h (base + 3 * k + 2) ->
  ok (sbox_write st (3 * k) a b c ab bc ca)
     (fun o => length o = length st /\ (bytes_ok st -> bytes_ok o)
               /\ forall i, bit o i = hsbox (S k) base v h i).
Proof.
  intros Hl H.
  assert (B2 : (3 * k + 2) / 8 < length st) by (apply lt_div8; lia).
  assert (B1 : (3 * k + 1) / 8 < length st) by (apply lt_div8; lia).
  assert (B0 : (3 * k) / 8 < length st) by (apply lt_div8; lia).
  intros -> -> -> -> -> ->. unfold sbox_write.
  rewrite setBit_ok by auto. cbn [bind].
  rewrite setBit_ok by (rewrite length_set_bit; auto). cbn [bind].
  rewrite setBit_ok by (rewrite !length_set_bit; auto). cbn [ok].
  rewrite !length_set_bit. split; auto.
  split; [intros; repeat apply bytes_ok_set_bit; auto|].
  intros i.
  rewrite !bit_set_bit by (rewrite ?length_set_bit; auto).
  destruct (sbox_index i k) as [[x [Hx ->]]|Hne].
  - rewrite hsbox_at by lia.
    destruct x as [|[|[|x]]]; [| | |lia]; rewrite ?Nat.add_0_r; eqbs; reflexivity.
  - eqbs.
    rewrite H. unfold hsbox.
    destruct (Nat.ltb_spec i (3 * k)); destruct (Nat.ltb_spec i (3 * S k)); auto; lia.
Qed.

Lemma hsbox_ext_h m base v h h' i :
  (forall p, base <= p < base + 3 * m -> h p = h' p) -> hsbox m base v h i = hsbox m base v h' i.
Proof.
  intros H. destruct (Nat.lt_ge_cases i (3 * m)) as [Hl|Hl].
  - destruct (split3 i m Hl) as (k & x & Hk & Hx & ->). rewrite !hsbox_at by auto.
    destruct x as [|[|x]]; rewrite !H by lia; reflexivity.
  - rewrite !hsbox_out by auto. auto.
Qed.

Lemma hsbox_ext_v m base u v h i :
  (forall p, u p = v p) -> hsbox m base u h i = hsbox m base v h i.
Proof. intros H. unfold hsbox. rewrite !H. reflexivity. Qed.

Section S.
Variable E : env.
Variable P : paramset.
Hypothesis HP : wfP P.
Hypothesis HE : env_bytes_ok E.
Hypothesis HC : constants_ok E P.

Let n := stateSizeBits P.
Let W := stateSizeWords P.
Let m := numSboxes P.
Let R := numRounds P.
Let L := lowmc_of E P.

(** ** The S-box layer, three parties *)
Definition round_gates (base m : nat) (v v' h t t' : vec) : Prop :=
  forall k x, k < m -> x < 3 ->
    h (base + (3 * k + x)) =
    andf (v (gin1 k x)) (v (gin2 k x)) (v' (gin1 k x)) (v' (gin2 k x))
         (t (base + (3 * k + x))) (t' (base + (3 * k + x))).

Lemma mpc_substitution_spec (st tape comm : tri bytes) base :
  (forall j, j < 3 -> 3 * m <= 8 * length (tget st j)) ->
  (forall j, j < 3 -> base + 3 * m <= 8 * length (tget tape j)) ->
  (forall j, j < 3 -> base + 3 * m <= 8 * length (tget comm j)) ->
  ok (mpc_substitution P st tape comm base) (fun '((st', comm', pos') : tri bytes * tri bytes * nat) =>
    pos' = base + 3 * m /\
    forall j, j < 3 ->
      length (tget st' j) = length (tget st j) /\
      (bytes_ok (tget st j) -> bytes_ok (tget st' j)) /\
      length (tget comm' j) = length (tget comm j) /\
      (bytes_ok (tget comm j) -> bytes_ok (tget comm' j)) /\
      (forall p, p < base \/ base + 3 * m <= p -> bit (tget comm' j) p = bit (tget comm j) p) /\
      (forall i, bit (tget st' j) i = hsbox m base (bit (tget st j)) (bit (tget comm' j)) i) /\
      round_gates base m (bit (tget st j)) (bit (tget st (nxt j))) (bit (tget comm' j))
                  (bit (tget tape j)) (bit (tget tape (nxt j)))).
Proof.
  intros Hst Ht Hcm. unfold mpc_substitution. fold m.
  eapply ok_mono.
  - apply ok_for with (I := fun k '((st', comm', pos') : tri bytes * tri bytes * nat) =>
      pos' = base + 3 * k /\
      forall j, j < 3 ->
      length (tget st' j) = length (tget st j) /\
      (bytes_ok (tget st j) -> bytes_ok (tget st' j)) /\
      length (tget comm' j) = length (tget comm j) /\
      (bytes_ok (tget comm j) -> bytes_ok (tget comm' j)) /\
      (forall p, p < base \/ base + 3 * k <= p -> bit (tget comm' j) p = bit (tget comm j) p) /\
      (forall i, bit (tget st' j) i = hsbox k base (bit (tget st j)) (bit (tget comm' j)) i) /\
      round_gates base k (bit (tget st j)) (bit (tget st (nxt j))) (bit (tget comm' j))
                  (bit (tget tape j)) (bit (tget tape (nxt j)))).
    + split; [lia|]. intros j Hj. repeat (split; auto). intros k x Hk. lia.
    + intros k [[s cm] pos] Hk [-> HI].
      (* reading the inputs *)
      assert (Hin : forall d, d < 3 ->
        ok (triM (fun j => getBit (tget s j) (3 * k + d)))
           (fun a => forall j, j < 3 -> tget a j = bit (tget st j) (3 * k + d))).
      { intros d Hd. apply (ok_triM (fun j b => b = bit (tget st j) (3 * k + d))). intros j Hj.
        destruct (HI j Hj) as (Hl & _ & _ & _ & _ & Hs & _). specialize (Hst j Hj).
        rewrite getBit_ok by (apply lt_div8; lia). simpl. rewrite Hs. apply hsbox_out. lia. }
      eapply ok_step; [apply (Hin 2); lia|]. intros a Ha.
      eapply ok_step; [apply (Hin 1); lia|]. intros b Hb.
      eapply ok_step; [rewrite <- (Nat.add_0_r (3 * k)); apply (Hin 0); lia|]. intros c Hc.
      cbv beta in Ha, Hb, Hc. rewrite Nat.add_0_r in Hc.
      eapply ok_step.
      { apply mpc_AND_spec; intros j Hj; destruct (HI j Hj) as (_ & _ & Hl & _);
          specialize (Ht j Hj); specialize (Hcm j Hj); lia. }
      intros [[ab cm1] pos1] (-> & Hab & Hcm1).
      assert (Hl1 : forall j, j < 3 -> length (tget cm1 j) = length (tget comm j)).
      { intros j Hj. rewrite Hcm1, length_set_bit by auto. apply HI; auto. }
      eapply ok_step.
      { apply mpc_AND_spec; intros j Hj; specialize (Hl1 j Hj); specialize (Ht j Hj);
          specialize (Hcm j Hj); lia. }
      intros [[bc cm2] pos2] (-> & Hbc & Hcm2).
      assert (Hl2 : forall j, j < 3 -> length (tget cm2 j) = length (tget comm j)).
      { intros j Hj. rewrite Hcm2, length_set_bit by auto. auto. }
      eapply ok_step.
      { apply mpc_AND_spec; intros j Hj; specialize (Hl2 j Hj); specialize (Ht j Hj);
          specialize (Hcm j Hj); lia. }
      intros [[ca cm3] pos3] (-> & Hca & Hcm3).
      assert (Hl3 : forall j, j < 3 -> length (tget cm3 j) = length (tget comm j)).
      { intros j Hj. rewrite Hcm3, length_set_bit by auto. auto. }
      assert (Hbit : forall j p, j < 3 -> bit (tget cm3 j) p =
        if p =? base + 3 * k then tget ab j else if p =? base + 3 * k + 1 then tget bc j
        else if p =? base + 3 * k + 2 then tget ca j else bit (tget cm j) p).
      { intros j p Hj. specialize (Hcm j Hj). pose proof (Hl1 j Hj). pose proof (Hl2 j Hj).
        destruct (HI j Hj) as (_ & _ & Hl & _).
        rewrite Hcm3, bit_set_bit, Hcm2, bit_set_bit, Hcm1, bit_set_bit
          by (auto; apply lt_div8; lia).
        repeat match goal with
               | |- context [?a =? ?b] => destruct (Nat.eqb_spec a b); try lia
               end; auto. }
      eapply ok_step.
      { apply ok_triM with (Q := fun j (o : bytes) => length o = length (tget s j) /\
          (bytes_ok (tget s j) -> bytes_ok o) /\
          forall i, bit o i = hsbox (S k) base (bit (tget st j)) (bit (tget cm3 j)) i).
        intros j Hj. destruct (HI j Hj) as (Hl & _ & _ & _ & _ & Hs & _). specialize (Hst j Hj).
        apply sbox_write_spec; auto; try lia.
        - intros i. rewrite Hs. apply hsbox_ext_h. intros p Hp. rewrite Hbit by auto.
          eqbs; auto.
        - rewrite Hbit, Nat.eqb_refl by auto. auto.
        - rewrite Hbit by auto. eqbs; auto.
        - rewrite Hbit by auto. eqbs; auto. }
      intros s' Hs'. cbv beta in Hs'. cbn [ok]. split; [lia|].
      intros j Hj. destruct (HI j Hj) as (Il & Ib & Icl & Icb & Ico & Is & Ig).
      destruct (Hs' j Hj) as (Sl & Sb & Sv).
      split; [lia|]. split; [auto|]. split; [auto|].
      split; [intros Hbb; rewrite Hcm3, Hcm2, Hcm1 by auto; repeat apply bytes_ok_set_bit; auto|].
      split.
      { intros p Hp. rewrite Hbit by auto. rewrite <- Ico by lia.
        eqbs; auto. }
      split; [exact Sv|].
      intros k' x Hk' Hx. rewrite Hbit by auto.
      destruct (Nat.eq_dec k' k) as [->|Hne].
      * pose proof (nxt_lt j).
        destruct x as [|[|[|x]]]; try lia; unfold gin1, gin2;
        eqbs.
        -- rewrite Hab, !Ha, !Hb by auto. rewrite Nat.add_0_r. reflexivity.
        -- rewrite Hbc, !Hb, !Hc by auto. replace (base + (3 * k + 1)) with (S (base + 3 * k)) by lia.
           reflexivity.
        -- rewrite Hca, !Ha, !Hc by auto. replace (base + (3 * k + 2)) with (S (S (base + 3 * k))) by lia.
           reflexivity.
      * eqbs. apply Ig; lia.
  - cbv beta. intros [[s cm] pos]. rewrite Nat.add_0_l. auto.
Qed.

(** ** The S-box layer, two parties *)
Lemma mpc_substitution_verify_spec (st tape : duo bytes) (comm1 comm2 : bytes) base :
  (forall j, j < 2 -> 3 * m <= 8 * length (dget st j)) ->
  (forall j, j < 2 -> base + 3 * m <= 8 * length (dget tape j)) ->
  base + 3 * m <= 8 * length comm1 -> base + 3 * m <= 8 * length comm2 ->
  ok (mpc_substitution_verify P st tape comm1 comm2 base)
   (fun '((st', comm', pos') : duo bytes * bytes * nat) =>
    pos' = base + 3 * m /\
    length comm' = length comm1 /\ (bytes_ok comm1 -> bytes_ok comm') /\
    (forall p, p < base \/ base + 3 * m <= p -> bit comm' p = bit comm1 p) /\
    round_gates base m (bit (dget st 0)) (bit (dget st 1)) (bit comm')
                (bit (dget tape 0)) (bit (dget tape 1)) /\
    forall j, j < 2 ->
      length (dget st' j) = length (dget st j) /\
      (bytes_ok (dget st j) -> bytes_ok (dget st' j)) /\
      (forall i, bit (dget st' j) i =
                 hsbox m base (bit (dget st j)) (bit (dget (comm', comm2) j)) i)).
Proof.
  intros Hst Ht Hcm1 Hcm2. unfold mpc_substitution_verify. fold m.
  eapply ok_mono.
  - apply ok_for with (I := fun k '((st', comm', pos') : duo bytes * bytes * nat) =>
    pos' = base + 3 * k /\
    length comm' = length comm1 /\ (bytes_ok comm1 -> bytes_ok comm') /\
    (forall p, p < base \/ base + 3 * k <= p -> bit comm' p = bit comm1 p) /\
    round_gates base k (bit (dget st 0)) (bit (dget st 1)) (bit comm')
                (bit (dget tape 0)) (bit (dget tape 1)) /\
    forall j, j < 2 ->
      length (dget st' j) = length (dget st j) /\
      (bytes_ok (dget st j) -> bytes_ok (dget st' j)) /\
      (forall i, bit (dget st' j) i =
                 hsbox k base (bit (dget st j)) (bit (dget (comm', comm2) j)) i)).
    + split; [lia|]. split; [auto|]. split; [auto|]. split; [auto|].
      split; [intros k x Hk; lia|]. intros j Hj. auto.
    + intros k [[s cm] pos] Hk (-> & Hcl & Hcb & Hco & Hg & HI).
      assert (Hin : forall d, d < 3 ->
        ok (duoM (fun j => getBit (dget s j) (3 * k + d)))
           (fun a => forall j, j < 2 -> dget a j = bit (dget st j) (3 * k + d))).
      { intros d Hd. apply (ok_duoM (fun j b => b = bit (dget st j) (3 * k + d))). intros j Hj.
        destruct (HI j Hj) as (Hl & _ & Hs). specialize (Hst j Hj).
        rewrite getBit_ok by (apply lt_div8; lia). simpl. rewrite Hs. apply hsbox_out. lia. }
      eapply ok_step; [apply (Hin 2); lia|]. intros a Ha.
      eapply ok_step; [apply (Hin 1); lia|]. intros b Hb.
      eapply ok_step; [rewrite <- (Nat.add_0_r (3 * k)); apply (Hin 0); lia|]. intros c Hc.
      cbv beta in Ha, Hb, Hc. rewrite Nat.add_0_r in Hc.
      rewrite mpc_AND_verify_spec by (try (intros j Hj; specialize (Ht j Hj)); lia).
      cbv zeta. cbn [bind].
      rewrite mpc_AND_verify_spec
        by (try (intros j Hj; specialize (Ht j Hj)); rewrite ?length_set_bit; lia).
      cbv zeta. cbn [bind].
      rewrite mpc_AND_verify_spec
        by (try (intros j Hj; specialize (Ht j Hj)); rewrite ?length_set_bit; lia).
      cbv zeta. cbn [bind].
      set (ab := andf (dget a 0) _ _ _ _ _). set (bc := andf (dget b 0) _ _ _ _ _).
      set (ca := andf (dget c 0) _ _ _ _ _).
      set (cm3 := set_bit (set_bit (set_bit cm _ ab) _ bc) _ ca).
      assert (Hbit : forall p, bit cm3 p =
        if p =? base + 3 * k then ab else if p =? base + 3 * k + 1 then bc
        else if p =? base + 3 * k + 2 then ca else bit cm p).
      { intros p. unfold cm3.
        assert (HB : base + 3 * k + 2 < 8 * length cm) by (clear - Hk Hcl Hcm1; lia).
        assert (HB0 : (base + 3 * k) / 8 < length cm) by (clear - HB; apply lt_div8; lia).
        assert (HB1 : S (base + 3 * k) / 8 < length cm) by (clear - HB; apply lt_div8; lia).
        assert (HB2 : S (S (base + 3 * k)) / 8 < length cm) by (clear - HB; apply lt_div8; lia).
        rewrite !bit_set_bit by (rewrite ?length_set_bit; assumption).
        clearbody ab bc ca. clear.
        replace (base + 3 * k + 1) with (S (base + 3 * k)) by lia.
        replace (base + 3 * k + 2) with (S (S (base + 3 * k))) by lia.
        destruct (Nat.eqb_spec p (base + 3 * k)) as [->|]; [eqbs; reflexivity|].
        destruct (Nat.eqb_spec p (S (base + 3 * k))) as [->|]; [eqbs; reflexivity|].
        reflexivity. }
      assert (B0 : bit cm3 (base + 3 * k) = ab) by (rewrite Hbit; clear; eqbs; auto).
      assert (B1 : bit cm3 (base + 3 * k + 1) = bc) by (rewrite Hbit; clear; eqbs; auto).
      assert (B2 : bit cm3 (base + 3 * k + 2) = ca) by (rewrite Hbit; clear; eqbs; auto).
      assert (Bo : forall p, p < base + 3 * k \/ base + 3 * k + 3 <= p -> bit cm3 p = bit cm p)
        by (intros p Hp; rewrite Hbit; clear - Hp; eqbs; auto).
      eapply ok_step.
      { apply ok_duoM with (Q := fun j (o : bytes) => length o = length (dget s j) /\
          (bytes_ok (dget s j) -> bytes_ok o) /\
          forall i, bit o i = hsbox (S k) base (bit (dget st j)) (bit (dget (cm3, comm2) j)) i).
        intros j Hj. destruct (HI j Hj) as (Hl & _ & Hs). specialize (Hst j Hj).
        apply sbox_write_spec; auto.
        - clear - Hst Hk Hl. lia.
        - intros i. rewrite Hs. apply hsbox_ext_h. intros p Hp.
          assert (j = 0 \/ j = 1) as [-> | ->] by (clear - Hj; lia); cbn [dget fst snd]; auto.
          symmetry. apply Bo. clear - Hp; lia.
        - assert (j = 0 \/ j = 1) as [-> | ->] by (clear - Hj; lia); cbn [dget fst snd]; auto.
        - assert (j = 0 \/ j = 1) as [-> | ->] by (clear - Hj; lia); cbn [dget fst snd]; auto.
          f_equal. clear; lia.
        - assert (j = 0 \/ j = 1) as [-> | ->] by (clear - Hj; lia); cbn [dget fst snd]; auto.
          f_equal. clear; lia. }
      intros s' Hs'. cbv beta in Hs'. cbn [ok].
      split; [clear; lia|].
      split; [unfold cm3; rewrite !length_set_bit; auto|].
      split; [intros; repeat apply bytes_ok_set_bit; auto|].
      split; [intros p Hp; rewrite Bo by (clear - Hp; lia); apply Hco; clear - Hp; lia|].
      split.
      { intros k' x Hk' Hx. destruct (Nat.eq_dec k' k) as [->|Hne].
        - destruct x as [|[|[|x]]]; [| | |clear - Hx; lia]; unfold gin1, gin2.
          + rewrite Nat.add_0_r, B0. unfold ab. rewrite (Ha 0 Nat.lt_0_2), (Ha 1 Nat.lt_1_2), (Hb 0 Nat.lt_0_2), (Hb 1 Nat.lt_1_2). reflexivity.
          + rewrite Nat.add_assoc, B1. unfold bc. rewrite (Hb 0 Nat.lt_0_2), (Hb 1 Nat.lt_1_2), (Hc 0 Nat.lt_0_2), (Hc 1 Nat.lt_1_2).
            replace (base + 3 * k + 1) with (S (base + 3 * k)) by (clear; lia). reflexivity.
          + rewrite Nat.add_assoc, B2. unfold ca. rewrite (Ha 0 Nat.lt_0_2), (Ha 1 Nat.lt_1_2), (Hc 0 Nat.lt_0_2), (Hc 1 Nat.lt_1_2).
            replace (base + 3 * k + 2) with (S (S (base + 3 * k))) by (clear; lia). reflexivity.
        - rewrite Bo by (clear - Hk' Hne Hx; lia). apply Hg; auto. clear - Hk' Hne; lia. }
      intros j Hj. destruct (HI j Hj) as (Hl & Hbb & _). destruct (Hs' j Hj) as (Sl & Sb & Sv).
      split; [congruence|]. split; auto.
  - cbv beta. intros [[s cm] pos]. rewrite Nat.add_0_l. auto.
Qed.

(** ** The linear layer *)
Lemma matmul_share out st M :
  bytes_ok st -> bytes_ok M -> n <= 8 * length st -> length M = n * (4 * W) ->
  length out = 4 * W -> bytes_ok out ->
  ok (matrix_mul E P out st M) (fun o => length o = 4 * W /\ bytes_ok o /\
     forall i, bit o i = if i <? n then matvec n (mat_of_bytes W M) (bit st) i else false).
Proof.
  intros Hst HM Hls HlM Hlo Hob.
  eapply ok_mono; [apply matrix_mul_spec; auto; fold W; lia|].
  cbv beta. fold n W. intros o (Hl & Hb & H).
  split; [congruence|]. split; auto. intros i. rewrite H.
  destruct (Nat.ltb_spec i n); auto. destruct (Nat.ltb_spec i (32 * W)); auto.
  apply bit_overflow. rewrite Hlo. apply Nat.div_le_lower_bound; lia.
Qed.

Lemma bit_share b i : length b = 4 * W -> 32 * W <= i -> bit b i = false.
Proof. intros Hl Hi. apply bit_overflow. rewrite Hl. apply Nat.div_le_lower_bound; lia. Qed.

Lemma xor_share a b :
  length a = 4 * W -> 4 * W <= length b -> bytes_ok a -> bytes_ok b ->
  ok (xor_array a a b W) (fun o => length o = 4 * W /\ bytes_ok o /\
     forall i, i < 32 * W -> bit o i = xorb (bit a i) (bit b i)).
Proof.
  intros Ha Hb Hab Hbb. eapply ok_mono; [apply xor_array_spec; lia|].
  cbv beta. intros o (Hl & Ho & H). split; [lia|]. split; auto.
  intros i Hi. rewrite H. replace (i <? 32 * W) with true by lia. auto.
Qed.

Definition share (b : bytes) : Prop := length b = 4 * W /\ bytes_ok b.

Lemma zero_words_share : share (zero_words P).
Proof. split; [apply length_zeros|apply bytes_ok_zeros]. Qed.

Definition cst (j : nat) : bool := j =? 0.

Lemma mpc_matrix_mul3_spec out st M :
  bytes_ok M -> length M = n * (4 * W) ->
  (forall j, j < 3 -> share (tget out j)) ->
  (forall j, j < 3 -> bytes_ok (tget st j) /\ n <= 8 * length (tget st j)) ->
  ok (mpc_matrix_mul3 E P out st M) (fun o => forall j, j < 3 -> share (tget o j) /\
     forall i, bit (tget o j) i =
               if i <? n then matvec n (mat_of_bytes W M) (bit (tget st j)) i else false).
Proof.
  intros HM HlM Ho Hs. unfold mpc_matrix_mul3.
  apply (ok_triM (fun j o => share o /\ forall i, bit o i =
               if i <? n then matvec n (mat_of_bytes W M) (bit (tget st j)) i else false)).
  intros j Hj. destruct (Ho j Hj), (Hs j Hj).
  eapply ok_mono; [apply matmul_share; auto|]. cbv beta. unfold share. tauto.
Qed.

Lemma mpc_matrix_mul2_spec out st M :
  bytes_ok M -> length M = n * (4 * W) ->
  (forall j, j < 2 -> share (dget out j)) ->
  (forall j, j < 2 -> bytes_ok (dget st j) /\ n <= 8 * length (dget st j)) ->
  ok (mpc_matrix_mul2 E P out st M) (fun o => forall j, j < 2 -> share (dget o j) /\
     forall i, bit (dget o j) i =
               if i <? n then matvec n (mat_of_bytes W M) (bit (dget st j)) i else false).
Proof.
  intros HM HlM Ho Hs. unfold mpc_matrix_mul2.
  apply (ok_duoM (fun j o => share o /\ forall i, bit o i =
               if i <? n then matvec n (mat_of_bytes W M) (bit (dget st j)) i else false)).
  intros j Hj. destruct (Ho j Hj), (Hs j Hj).
  eapply ok_mono; [apply matmul_share; auto|]. cbv beta. unfold share. tauto.
Qed.

Lemma mpc_xor3_spec s a :
  (forall j, j < 3 -> share (tget s j)) -> (forall j, j < 3 -> share (tget a j)) ->
  ok (mpc_xor3 s a W) (fun o => forall j, j < 3 -> share (tget o j) /\
     forall i, i < 32 * W -> bit (tget o j) i = xorb (bit (tget s j) i) (bit (tget a j) i)).
Proof.
  intros Hs Ha. unfold mpc_xor3.
  apply (ok_triM (fun j o => share o /\
     forall i, i < 32 * W -> bit o i = xorb (bit (tget s j) i) (bit (tget a j) i))).
  intros j Hj. destruct (Hs j Hj), (Ha j Hj).
  eapply ok_mono; [apply xor_share; auto; lia|]. cbv beta. unfold share. tauto.
Qed.

Lemma mpc_xor2_spec s a :
  (forall j, j < 2 -> share (dget s j)) -> (forall j, j < 2 -> share (dget a j)) ->
  ok (mpc_xor2 s a W) (fun o => forall j, j < 2 -> share (dget o j) /\
     forall i, i < 32 * W -> bit (dget o j) i = xorb (bit (dget s j) i) (bit (dget a j) i)).
Proof.
  intros Hs Ha. unfold mpc_xor2.
  apply (ok_duoM (fun j o => share o /\
     forall i, i < 32 * W -> bit o i = xorb (bit (dget s j) i) (bit (dget a j) i))).
  intros j Hj. destruct (Hs j Hj), (Ha j Hj).
  eapply ok_mono; [apply xor_share; auto; lia|]. cbv beta. unfold share. tauto.
Qed.

Lemma mpc_xor_constant_spec s inp :
  (forall j, j < 3 -> share (tget s j)) -> bytes_ok inp -> 4 * W <= length inp ->
  ok (mpc_xor_constant s inp W) (fun o => forall j, j < 3 -> share (tget o j) /\
     forall i, i < 32 * W -> bit (tget o j) i = xorb (bit (tget s j) i) (cst j && bit inp i)).
Proof.
  intros Hs Hb Hl. destruct s as [[s0 s1] s2]. unfold mpc_xor_constant.
  destruct (Hs 0 ltac:(lia)) as [Hl0 Hb0]. cbn [tget] in Hl0, Hb0.
  eapply ok_step; [apply xor_share; auto|]. intros o (Hol & Hob & Ho). cbn [ok].
  intros j Hj. destruct (lt3 j Hj) as [-> | [-> | ->]]; cbn [tget cst].
  - split; [split; auto|]. exact Ho.
  - split; [apply (Hs 1); lia|]. intros i Hi. simpl. rewrite xorb_false_r. auto.
  - split; [apply (Hs 2); lia|]. intros i Hi. simpl. rewrite xorb_false_r. auto.
Qed.

(** The party numbers of the two shares of the verifier. *)
Definition vcst (ch j : nat) : bool := if j =? 0 then ch =? 0 else ch =? 2.

Lemma mpc_xor_constant_verify_spec s inp ch :
  (forall j, j < 2 -> share (dget s j)) -> bytes_ok inp -> 4 * W <= length inp ->
  ok (mpc_xor_constant_verify s inp W ch) (fun o => forall j, j < 2 -> share (dget o j) /\
     forall i, i < 32 * W -> bit (dget o j) i = xorb (bit (dget s j) i) (vcst ch j && bit inp i)).
Proof.
  intros Hs Hb Hl. destruct s as [s0 s1]. unfold mpc_xor_constant_verify.
  destruct (Hs 0 ltac:(lia)) as [Hl0 Hb0]. destruct (Hs 1 ltac:(lia)) as [Hl1 Hb1].
  cbn [dget fst snd] in *.
  assert (H2 : forall j, j < 2 -> j = 0 \/ j = 1) by (intros; lia).
  unfold vcst.
  destruct (Nat.eqb_spec ch 0) as [->|H0]; [|destruct (Nat.eqb_spec ch 2) as [->|H2']].
  - eapply ok_step; [apply xor_share; auto|]. intros o (Hol & Hob & Ho). cbn [ok].
    intros j Hj. destruct (H2 j Hj) as [-> | ->]; cbn [dget fst snd]; (split; [split; auto|]).
    + exact Ho.
    + intros i Hi. simpl. rewrite xorb_false_r. auto.
  - eapply ok_step; [apply xor_share; auto|]. intros o (Hol & Hob & Ho). cbn [ok].
    intros j Hj. destruct (H2 j Hj) as [-> | ->]; cbn [dget fst snd]; (split; [split; auto|]).
    + intros i Hi. simpl. rewrite xorb_false_r. auto.
    + exact Ho.
  - cbn [ok]. intros j Hj. destruct (H2 j Hj) as [-> | ->]; cbn [dget fst snd];
      (split; [split; auto|]); intros i Hi; simpl; rewrite xorb_false_r; auto.
Qed.

(** ** Rounds *)
Definition gates_upto (rr : nat) (s s' : nat -> vec) (h t t' : vec) : Prop :=
  forall i k x, i < rr -> k < m -> x < 3 ->
    let p := gpos m i k x in
    h p = andf (s i (gin1 k x)) (s i (gin2 k x)) (s' i (gin1 k x)) (s' i (gin2 k x)) (t p) (t' p).

Lemma hst_agree c key pt h g i :
  (forall p, p < 3 * m * i -> h p = g p) -> veq n (hst L c key pt h i) (hst L c key pt g i).
Proof.
  intros H. apply (hst_ext L); auto; try (intros j Hj; reflexivity). apply (wf_m P HP).
Qed.

Lemma gates_extend rr c c' key key' pt h h' g g' u u' t t' :
  gates_upto rr (hst L c key pt h) (hst L c' key' pt h') h t t' ->
  (forall p, p < 3 * m * rr -> g p = h p) -> (forall p, p < 3 * m * rr -> g' p = h' p) ->
  veq n u (hst L c key pt h rr) -> veq n u' (hst L c' key' pt h' rr) ->
  round_gates (3 * m * rr) m u u' g t t' ->
  gates_upto (S rr) (hst L c key pt g) (hst L c' key' pt g') g t t'.
Proof.
  intros G Hg Hg' Hu Hu' HR i k x Hi Hk Hx. cbv zeta.
  pose proof (wf_m P HP) as Hmn. fold m n in Hmn.
  destruct (gin_lt k x m Hk) as [Hg1 Hg2].
  assert (Hgi : veq n (hst L c key pt g i) (hst L c key pt h i)).
  { apply hst_agree. intros p Hp. apply Hg. nia. }
  assert (Hgi' : veq n (hst L c' key' pt g' i) (hst L c' key' pt h' i)).
  { apply hst_agree. intros p Hp. apply Hg'. nia. }
  rewrite !Hgi, !Hgi' by lia.
  destruct (Nat.eq_dec i rr) as [->|Hne].
  - specialize (HR k x Hk Hx). unfold gpos. rewrite HR, !Hu, !Hu' by lia. reflexivity.
  - rewrite Hg by (apply gpos_lt; auto; lia). apply (G i k x); auto; lia.
Qed.

Lemma hst_S c key pt h g rr u i :
  veq n u (hst L c key pt h rr) -> (forall p, p < 3 * m * rr -> g p = h p) -> i < n ->
  hst L c key pt g (S rr) i =
  xorb (xorb (matvec n (mat_of_bytes W (LMatrix E P rr)) (hsbox m (3 * m * rr) u g) i)
             (c && bit (RConstant E P rr) i))
       (matvec n (mat_of_bytes W (KMatrix E P (S rr))) key i).
Proof.
  intros Hu Hg Hi. cbn [hst]. f_equal. f_equal. apply matvec_ext. intros j Hj.
  apply (hsbox_ext n); auto; [apply (wf_m P HP)|].
  intros l Hl. rewrite Hu by auto. apply hst_agree; auto.
Qed.

(** What one share of a result buffer of [stateSizeBytes] bytes looks like. *)
Definition out_share (o : bytes) (s : vec) : Prop :=
  length o = stateSizeBytes P /\ bytes_ok o /\
  forall i, bit o i = if i <? n then s i else false.

Lemma out_share_copy st o s :
  share st -> (forall i, i < n -> bit st i = s i) -> (forall i, n <= i -> bit st i = false) ->
  length o = stateSizeBytes P -> bytes_ok o ->
  ok (x <- slice st 0 (stateSizeBytes P) ;; blit o 0 x) (fun o' => out_share o' s).
Proof.
  intros [Hl Hb] H1 H2 Ho Hob.
  assert (HsB : stateSizeBytes P <= length st).
  { rewrite Hl, (wf_sB P HP). pose proof (numBytes_spec n). pose proof (wf_W2 P HP) as HW2.
    fold n W in HW2. fold n. lia. }
  rewrite slice0_ok by auto. cbn [bind].
  rewrite blit0_all by (rewrite firstn_length; lia). cbn [ok].
  split; [rewrite firstn_length; lia|]. split; [apply Forall_firstn; auto|].
  intros i. pose proof (numBytes_spec n). rewrite (wf_sB P HP). fold n.
  destruct (Nat.ltb_spec i n).
  - rewrite bit_firstn by lia. auto.
  - destruct (Nat.lt_ge_cases i (8 * numBytes n)).
    + rewrite bit_firstn by auto. auto.
    + apply bit_overflow. rewrite firstn_length.
      apply Nat.le_trans with (numBytes n); [lia|]. apply Nat.div_le_lower_bound; lia.
Qed.

Definition tri_keys (views : tri view) (j : nat) : bytes := v_inputShare (tget views j).

Lemma mpc_LowMC_spec (tape : tri bytes) (views : tri view) pt slab :
  24 * W <= slab -> 4 * W <= length pt -> bytes_ok pt ->
  (forall j, j < 3 -> 3 * m * R <= 8 * length (tget tape j)) ->
  (forall j, j < 3 ->
     n <= 8 * length (v_inputShare (tget views j)) /\ bytes_ok (v_inputShare (tget views j)) /\
     3 * m * R <= 8 * length (v_communicatedBits (tget views j)) /\
     bytes_ok (v_communicatedBits (tget views j)) /\
     length (v_outputShare (tget views j)) = stateSizeBytes P /\
     bytes_ok (v_outputShare (tget views j))) ->
  ok (mpc_LowMC E P tape views pt slab) (fun vs =>
    let st := fun j => hst L (cst j) (bit (v_inputShare (tget views j))) (bit pt)
                           (bit (v_communicatedBits (tget vs j))) in
    forall j, j < 3 ->
      v_inputShare (tget vs j) = v_inputShare (tget views j) /\
      length (v_communicatedBits (tget vs j)) = length (v_communicatedBits (tget views j)) /\
      bytes_ok (v_communicatedBits (tget vs j)) /\
      (forall p, 3 * m * R <= p -> bit (v_communicatedBits (tget vs j)) p =
                                   bit (v_communicatedBits (tget views j)) p) /\
      out_share (v_outputShare (tget vs j)) (st j R) /\
      gates L (st j) (st (nxt j)) (bit (v_communicatedBits (tget vs j)))
            (bit (tget tape j)) (bit (tget tape (nxt j)))).
Proof.
  intros Hslab Hptl Hptb Htape Hviews. unfold mpc_LowMC. fold W R.
  rewrite guard_true by lia. cbn [bind].
  destruct HC as (HK & HL & HR). fold n W R in HK, HL, HR.
  pose proof (wf_W2 P HP) as HW2. pose proof (wf_m P HP) as Hmn.
  pose proof (wf_r P HP) as Hr0. fold n W m R in HW2, Hmn, Hr0.
  set (keys := (v_inputShare (tget views 0), v_inputShare (tget views 1),
                v_inputShare (tget views 2))).
  set (comm0 := (v_communicatedBits (tget views 0), v_communicatedBits (tget views 1),
                 v_communicatedBits (tget views 2))).
  assert (Hkeys : forall j, j < 3 -> tget keys j = v_inputShare (tget views j))
    by (intros j Hj; destruct (lt3 j Hj) as [-> | [-> | ->]]; reflexivity).
  assert (Hcomm0 : forall j, j < 3 -> tget comm0 j = v_communicatedBits (tget views j))
    by (intros j Hj; destruct (lt3 j Hj) as [-> | [-> | ->]]; reflexivity).
  assert (Hz : forall j, j < 3 -> share (tget (zero_words P, zero_words P, zero_words P) j)).
  { intros j Hj. destruct (lt3 j Hj) as [-> | [-> | ->]]; apply zero_words_share. }
  assert (Hkb : forall j, j < 3 -> bytes_ok (tget keys j) /\ n <= 8 * length (tget keys j)).
  { intros j Hj. rewrite Hkeys by auto. destruct (Hviews j Hj); tauto. }
  assert (Hzb : forall j i, j < 3 -> bit (tget (zero_words P, zero_words P, zero_words P) j) i = false).
  { intros j i Hj. destruct (lt3 j Hj) as [-> | [-> | ->]]; apply bit_zeros. }
  eapply ok_step; [apply mpc_xor_constant_spec; auto|]. intros s0 Hs0.
  destruct (HK 0 ltac:(lia)) as [HK0l HK0b].
  eapply ok_step; [apply mpc_matrix_mul3_spec; auto|]. intros rk0 Hrk0.
  eapply ok_step; [apply mpc_xor3_spec; [apply Hs0|apply Hrk0]|]. intros s1 Hs1.
  eapply ok_step.
  - apply ok_for with (I := fun r '((st, rk, comm, pos) : tri bytes * tri bytes * tri bytes * nat) =>
      pos = 3 * m * (r - 1) /\
      forall j, j < 3 ->
        share (tget st j) /\ share (tget rk j) /\
        length (tget comm j) = length (tget comm0 j) /\ bytes_ok (tget comm j) /\
        (forall p, 3 * m * (r - 1) <= p -> bit (tget comm j) p = bit (tget comm0 j) p) /\
        veq n (bit (tget st j))
              (hst L (cst j) (bit (tget keys j)) (bit pt) (bit (tget comm j)) (r - 1)) /\
        (forall i, n <= i -> 1 < r -> bit (tget st j) i = false) /\
        gates_upto (r - 1)
          (hst L (cst j) (bit (tget keys j)) (bit pt) (bit (tget comm j)))
          (hst L (cst (nxt j)) (bit (tget keys (nxt j))) (bit pt) (bit (tget comm (nxt j))))
          (bit (tget comm j)) (bit (tget tape j)) (bit (tget tape (nxt j)))).
    + split; [lia|]. intros j Hj. destruct (Hs1 j Hj) as [Hsh Hb]. destruct (Hrk0 j Hj) as [Hrs Hrb].
      destruct (Hs0 j Hj) as [_ Hs0b]. destruct (Hviews j Hj) as (_ & _ & Hcl & Hcb & _).
      split; [auto|]. split; [auto|]. split; [auto|]. split; [rewrite Hcomm0; auto|].
      split; [auto|].
      split.
      { intros i Hi. simpl. rewrite Hb, Hs0b, Hrb, Hzb by (auto; lia).
        replace (i <? n) with true by lia. rewrite xorb_false_l. reflexivity. }
      split; [intros; lia|]. intros i k x Hi. lia.
    + intros r [[[st rk] comm] pos] Hr (-> & HI).
      destruct (HK r ltac:(lia)) as [HKl HKb].
      destruct (HL (r - 1) ltac:(lia)) as [HLl HLb].
      destruct (HR (r - 1) ltac:(lia)) as (HCl & HCb & HCz).
      eapply ok_step.
      { apply mpc_matrix_mul3_spec; auto. intros j Hj. apply HI; auto. }
      intros rk' Hrk'.
      eapply ok_step.
      { apply mpc_substitution_spec.
        - intros j Hj. destruct (HI j Hj) as ([Hl _] & _). rewrite Hl. lia.
        - intros j Hj. specialize (Htape j Hj). nia.
        - intros j Hj. destruct (HI j Hj) as (_ & _ & Hl & _). rewrite Hl, Hcomm0 by auto.
          destruct (Hviews j Hj) as (_ & _ & Hcl & _). nia. }
      intros [[st2 comm2] pos2] (-> & Hsub).
      eapply ok_step.
      { apply mpc_matrix_mul3_spec; auto.
        - intros j Hj. destruct (Hsub j Hj) as (Hl & Hb & _).
          destruct (HI j Hj) as ([Hl' Hb'] & _). split; [congruence|auto].
        - intros j Hj. destruct (Hsub j Hj) as (Hl & Hb & _).
          destruct (HI j Hj) as ([Hl' Hb'] & _). split; [auto|]. rewrite Hl, Hl'. lia. }
      intros st3 Hst3.
      eapply ok_step.
      { apply mpc_xor_constant_spec; [intros j Hj; apply Hst3; auto|auto|lia]. }
      intros st4 Hst4.
      eapply ok_step.
      { apply mpc_xor3_spec; [intros j Hj; apply Hst4; auto|intros j Hj; apply Hrk'; auto]. }
      intros st5 Hst5. cbn [ok].
      assert (Hr' : S r - 1 = S (r - 1)) by lia. rewrite Hr'.
      split; [nia|].
      intros j Hj.
      destruct (HI j Hj) as (Is & _ & Icl & Icb & Ico & Iv & _ & Ig).
      destruct (HI (nxt j) (nxt_lt j)) as (_ & _ & _ & _ & _ & Iv' & _ & _).
      destruct (Hsub j Hj) as (Sl & Sb & Scl & Scb & Sco & Sv & Sg).
      destruct (Hsub (nxt j) (nxt_lt j)) as (_ & _ & _ & _ & Sco' & _).
      destruct (Hst5 j Hj) as [H5s H5b]. destruct (Hst4 j Hj) as [_ H4b].
      destruct (Hst3 j Hj) as [_ H3b]. destruct (Hrk' j Hj) as [Hrs Hrb].
      split; [auto|]. split; [auto|]. split; [congruence|]. split; [auto|].
      split.
      { intros p Hp. rewrite Sco by nia. apply Ico. nia. }
      split; [|split].
      * intros i Hi. rewrite H5b, H4b, H3b, Hrb by lia.
        replace (i <? n) with true by lia.
        rewrite (hst_S (cst j) (bit (tget keys j)) (bit pt) (bit (tget comm j))
                   (bit (tget comm2 j)) (r - 1) (bit (tget st j)) i Iv);
          [|intros p Hp; apply Sco; auto|auto].
        replace (S (r - 1)) with r by lia.
        f_equal. f_equal. apply matvec_ext. intros l Hl. apply Sv.
      * intros i Hi _. destruct (Nat.lt_ge_cases i (32 * W)).
        -- rewrite H5b, H4b, H3b, Hrb by lia. replace (i <? n) with false by lia.
           rewrite HCz by lia. rewrite andb_false_r. reflexivity.
        -- apply bit_share; auto. apply H5s.
      * eapply gates_extend; [exact Ig| | |exact Iv|exact Iv'|exact Sg];
          intros p Hp; [apply Sco|apply Sco']; auto.
  - intros [[[st rk] comm] pos] [_ HI].
    replace (1 + R - 1) with R in HI by lia.
    eapply ok_mono.
    + apply ok_triM with (Q := fun j v => v_inputShare v = v_inputShare (tget views j) /\
        v_communicatedBits v = tget comm j /\
        out_share (v_outputShare v)
          (hst L (cst j) (bit (tget keys j)) (bit pt) (bit (tget comm j)) R)).
      intros j Hj. destruct (HI j Hj) as (Is & _ & _ & _ & _ & Iv & Iz & _).
      destruct (Hviews j Hj) as (_ & _ & _ & _ & Hol & Hob).
      pose proof (out_share_copy (tget st j) (v_outputShare (tget views j)) _ Is Iv
                    (fun i Hi => Iz i Hi ltac:(lia)) Hol Hob) as Hc.
      destruct (slice (tget st j) 0 (stateSizeBytes P)) as [x| | |]; cbn [bind] in *; try contradiction.
      eapply ok_step; [exact Hc|]. intros o Ho. cbn [ok]. auto.
    + cbv beta zeta. intros vs Hvs j Hj.
      destruct (Hvs j Hj) as (V1 & V2 & V3). destruct (Hvs (nxt j) (nxt_lt j)) as (_ & V2' & _).
      destruct (HI j Hj) as (_ & _ & Icl & Icb & Ico & _ & _ & Ig).
      rewrite V1, V2, V2'. rewrite !Hkeys in * by (auto; apply nxt_lt).
      rewrite Hcomm0 in * by auto. auto 10.
Qed.

Lemma mpc_LowMC_verify_spec (tape : duo bytes) (v1 v2 : view) tmp pt ch :
  16 * W <= tmp -> 4 * W <= length pt -> bytes_ok pt ->
  (forall j, j < 2 -> 3 * m * R <= 8 * length (dget tape j)) ->
  (forall j, j < 2 ->
     n <= 8 * length (v_inputShare (dget (v1, v2) j)) /\
     bytes_ok (v_inputShare (dget (v1, v2) j)) /\
     3 * m * R <= 8 * length (v_communicatedBits (dget (v1, v2) j)) /\
     bytes_ok (v_communicatedBits (dget (v1, v2) j)) /\
     length (v_outputShare (dget (v1, v2) j)) = stateSizeBytes P /\
     bytes_ok (v_outputShare (dget (v1, v2) j))) ->
  ok (mpc_LowMC_verify E P v1 v2 tape tmp pt ch) (fun '(w1, w2) =>
    let s1 := hst L (ch =? 0) (bit (v_inputShare v1)) (bit pt) (bit (v_communicatedBits w1)) in
    let s2 := hst L (ch =? 2) (bit (v_inputShare v2)) (bit pt) (bit (v_communicatedBits v2)) in
    v_inputShare w1 = v_inputShare v1 /\ v_inputShare w2 = v_inputShare v2 /\
    v_communicatedBits w2 = v_communicatedBits v2 /\
    length (v_communicatedBits w1) = length (v_communicatedBits v1) /\
    bytes_ok (v_communicatedBits w1) /\
    (forall p, 3 * m * R <= p -> bit (v_communicatedBits w1) p = bit (v_communicatedBits v1) p) /\
    out_share (v_outputShare w1) (s1 R) /\ out_share (v_outputShare w2) (s2 R) /\
    gates L s1 s2 (bit (v_communicatedBits w1)) (bit (dget tape 0)) (bit (dget tape 1))).
Proof.
  intros Htmp Hptl Hptb Htape Hviews. unfold mpc_LowMC_verify. fold W R.
  rewrite guard_true by lia. cbn [bind].
  destruct HC as (HK & HL & HR). fold n W R in HK, HL, HR.
  pose proof (wf_W2 P HP) as HW2. pose proof (wf_m P HP) as Hmn.
  pose proof (wf_r P HP) as Hr0. fold n W m R in HW2, Hmn, Hr0.
  set (keys := (v_inputShare v1, v_inputShare v2)).
  assert (Hkeys : forall j, j < 2 -> dget keys j = v_inputShare (dget (v1, v2) j))
    by (intros j Hj; assert (j = 0 \/ j = 1) as [-> | ->] by lia; reflexivity).
  assert (Hz : forall j, j < 2 -> share (dget (zero_words P, zero_words P) j)).
  { intros j Hj; assert (j = 0 \/ j = 1) as [-> | ->] by lia; apply zero_words_share. }
  assert (Hkb : forall j, j < 2 -> bytes_ok (dget keys j) /\ n <= 8 * length (dget keys j)).
  { intros j Hj. rewrite Hkeys by auto. destruct (Hviews j Hj); tauto. }
  assert (Hzb : forall j i, j < 2 -> bit (dget (zero_words P, zero_words P) j) i = false).
  { intros j i Hj; assert (j = 0 \/ j = 1) as [-> | ->] by lia; apply bit_zeros. }
  destruct (Hviews 0 ltac:(lia)) as (_ & _ & Hc1l & Hc1b & Ho1l & Ho1b).
  destruct (Hviews 1 ltac:(lia)) as (_ & _ & Hc2l & Hc2b & Ho2l & Ho2b).
  cbn [dget fst snd] in Hc1l, Hc1b, Ho1l, Ho1b, Hc2l, Hc2b, Ho2l, Ho2b.
  eapply ok_step; [apply mpc_xor_constant_verify_spec; auto|]. intros s0 Hs0.
  destruct (HK 0 ltac:(lia)) as [HK0l HK0b].
  eapply ok_step; [apply mpc_matrix_mul2_spec; auto|]. intros rk0 Hrk0.
  eapply ok_step; [apply mpc_xor2_spec; [apply Hs0|apply Hrk0]|]. intros s1 Hs1.
  set (cm2 := v_communicatedBits v2) in *.
  eapply ok_step.
  - apply ok_for with (I := fun r '((st, rk, comm, pos) : duo bytes * duo bytes * bytes * nat) =>
      pos = 3 * m * (r - 1) /\
      length comm = length (v_communicatedBits v1) /\ bytes_ok comm /\
      (forall p, 3 * m * (r - 1) <= p -> bit comm p = bit (v_communicatedBits v1) p) /\
      gates_upto (r - 1)
          (hst L (ch =? 0) (bit (dget keys 0)) (bit pt) (bit comm))
          (hst L (ch =? 2) (bit (dget keys 1)) (bit pt) (bit cm2))
          (bit comm) (bit (dget tape 0)) (bit (dget tape 1)) /\
      forall j, j < 2 ->
        share (dget st j) /\ share (dget rk j) /\
        veq n (bit (dget st j))
              (hst L (vcst ch j) (bit (dget keys j)) (bit pt) (bit (dget (comm, cm2) j)) (r - 1)) /\
        (forall i, n <= i -> 1 < r -> bit (dget st j) i = false)).
    + split; [lia|]. split; [auto|]. split; [auto|]. split; [auto|].
      split; [intros i k x Hi; lia|].
      intros j Hj. destruct (Hs1 j Hj) as [Hsh Hb]. destruct (Hrk0 j Hj) as [Hrs Hrb].
      destruct (Hs0 j Hj) as [_ Hs0b].
      split; [auto|]. split; [auto|].
      split.
      { intros i Hi. simpl. rewrite Hb, Hs0b, Hrb, Hzb by (auto; lia).
        replace (i <? n) with true by lia. rewrite xorb_false_l. reflexivity. }
      intros; lia.
    + intros r [[[st rk] comm] pos] Hr (-> & Icl & Icb & Ico & Ig & HI).
      destruct (HK r ltac:(lia)) as [HKl HKb].
      destruct (HL (r - 1) ltac:(lia)) as [HLl HLb].
      destruct (HR (r - 1) ltac:(lia)) as (HCl & HCb & HCz).
      eapply ok_step.
      { apply mpc_matrix_mul2_spec; auto. intros j Hj. apply HI; auto. }
      intros rk' Hrk'.
      eapply ok_step.
      { apply mpc_substitution_verify_spec.
        - intros j Hj. destruct (HI j Hj) as ([Hl _] & _). rewrite Hl. lia.
        - intros j Hj. specialize (Htape j Hj). nia.
        - rewrite Icl. nia.
        - nia. }
      intros [[st2 comm2] pos2] (-> & Scl & Scb & Sco & Sg & Hsub).
      eapply ok_step.
      { apply mpc_matrix_mul2_spec; auto.
        - intros j Hj. destruct (Hsub j Hj) as (Hl & Hb & _).
          destruct (HI j Hj) as ([Hl' Hb'] & _). split; [congruence|auto].
        - intros j Hj. destruct (Hsub j Hj) as (Hl & Hb & _).
          destruct (HI j Hj) as ([Hl' Hb'] & _). split; [auto|]. rewrite Hl, Hl'. lia. }
      intros st3 Hst3.
      eapply ok_step.
      { apply mpc_xor_constant_verify_spec; [intros j Hj; apply Hst3; auto|auto|lia]. }
      intros st4 Hst4.
      eapply ok_step.
      { apply mpc_xor2_spec; [intros j Hj; apply Hst4; auto|intros j Hj; apply Hrk'; auto]. }
      intros st5 Hst5. cbn [ok].
      assert (Hr' : S r - 1 = S (r - 1)) by lia. rewrite Hr'.
      split; [nia|]. split; [congruence|]. split; [auto|].
      split; [intros p Hp; rewrite Sco by nia; apply Ico; nia|].
      split.
      { destruct (HI 0 ltac:(lia)) as (_ & _ & Iv & _). destruct (HI 1 ltac:(lia)) as (_ & _ & Iv' & _).
        eapply gates_extend; [exact Ig| | |exact Iv|exact Iv'|exact Sg];
          intros p Hp; [apply Sco|]; auto. }
      intros j Hj.
      destruct (HI j Hj) as (Is & _ & Iv & _).
      destruct (Hsub j Hj) as (Sl & Sb & Sv).
      destruct (Hst5 j Hj) as [H5s H5b]. destruct (Hst4 j Hj) as [_ H4b].
      destruct (Hst3 j Hj) as [_ H3b]. destruct (Hrk' j Hj) as [Hrs Hrb].
      split; [auto|]. split; [auto|]. split.
      * intros i Hi. rewrite H5b, H4b, H3b, Hrb by lia.
        replace (i <? n) with true by lia.
        rewrite (hst_S (vcst ch j) (bit (dget keys j)) (bit pt) (bit (dget (comm, cm2) j))
                   (bit (dget (comm2, cm2) j)) (r - 1) (bit (dget st j)) i Iv); [| |auto].
        2:{ intros p Hp. assert (j = 0 \/ j = 1) as [-> | ->] by lia; cbn [dget fst snd]; auto. }
        replace (S (r - 1)) with r by lia.
        f_equal. f_equal. apply matvec_ext. intros l Hl. apply Sv.
      * intros i Hi _. destruct (Nat.lt_ge_cases i (32 * W)).
        -- rewrite H5b, H4b, H3b, Hrb by lia. replace (i <? n) with false by lia.
           rewrite HCz by lia. rewrite andb_false_r. reflexivity.
        -- apply bit_share; auto. apply H5s.
  - intros [[[st rk] comm] pos] (_ & Icl & Icb & Ico & Ig & HI).
    replace (1 + R - 1) with R in * by lia.
    destruct (HI 0 ltac:(lia)) as (Is0 & _ & Iv0 & Iz0).
    destruct (HI 1 ltac:(lia)) as (Is1 & _ & Iv1 & Iz1).
    pose proof (out_share_copy (dget st 0) (v_outputShare v1) _ Is0 Iv0
                  (fun i Hi => Iz0 i Hi ltac:(lia)) Ho1l Ho1b) as Hx1.
    pose proof (out_share_copy (dget st 1) (v_outputShare v2) _ Is1 Iv1
                  (fun i Hi => Iz1 i Hi ltac:(lia)) Ho2l Ho2b) as Hx2.
    destruct (slice (dget st 0) 0 (stateSizeBytes P)) as [x| | |]; cbn [bind] in *; try contradiction.
    eapply ok_step; [exact Hx1|]. intros o1 Hout1.
    destruct (slice (dget st 1) 0 (stateSizeBytes P)) as [y| | |]; cbn [bind] in *; try contradiction.
    eapply ok_step; [exact Hx2|]. intros o2 Hout2. cbn [ok]. cbv zeta.
    cbn [v_inputShare v_communicatedBits v_outputShare dget fst snd keys] in *.
    repeat (split; [first [assumption|reflexivity]|]). exact Ig.
Qed.

End S.
