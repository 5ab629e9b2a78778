(** The Picnic3 challenge: expansion of the challenge hash. *)

From Coq Require Import List NArith Arith Bool Lia ZifyBool ZifyNat ZifyN.
From Verif Require Import Base Params Env Spec LowMC Tree Picnic3 BaseFacts ParamFacts UtilFacts
  TreeReveal P3Tape.
Import ListNotations.

Lemma hash_length E P pre c l : env_bytes_ok E -> length (hash E P pre c l) = l.
Proof. intros HE. unfold hash. apply HE. Qed.

Lemma hash_bytesok E P pre c l : env_bytes_ok E -> bytes_ok (hash E P pre c l).
Proof. intros HE. unfold hash. apply HE. Qed.

Section C.
Variable E : env.
Variable P : paramset.
Hypothesis HP3 : wfP3 P.
Hypothesis HE : env_bytes_ok E.

Let u := numOpenedRounds P.
Let T := numMPCRounds P.
Let dg := digestSizeBytes P.

Lemma chunk_ok bits input i : (i + 1) * bits <= 8 * length input ->
  ok (for_loop bits 0
         (fun j c =>
            b <- getBit input (i * bits + j) ;;
            let c := c + (if (b : bool) then 2 ^ j else 0) in
            _ <- c_assert (c <? 2 ^ bits) ;;
            Ok c) 0) (fun c => c < 2 ^ bits).
Proof.
  intros Hi. eapply ok_mono.
  - apply ok_for with (I := fun j c => c < 2 ^ j).
    + cbn. lia.
    + intros j c Hj Hc. rewrite getBit_ok by (apply lt_div8; lia). cbn [bind].
      assert (H1 : c + (if bit input (i * bits + j) then 2 ^ j else 0) < 2 ^ S j).
      { rewrite Nat.pow_succ_r'. clear - Hc. generalize dependent (2 ^ j). intros k Hk.
        destruct (bit input (i * bits + j)); lia. }
      assert (H2 : 2 ^ S j <= 2 ^ bits) by (apply Nat.pow_le_mono_r; lia).
      cbv zeta. set (c' := c + _) in *. replace (c' <? 2 ^ bits) with true by lia. cbn [c_assert bind ok]. exact H1.
  - cbv beta. intros c Hc. exact Hc.
Qed.

Lemma bitsToChunks_ok bits input cap :
  0 < bits <= 8 * dg -> dg <= length input -> dg * 8 / bits <= cap ->
  ok (bitsToChunks bits input dg cap) (fun l => Forall (fun c => c < 2 ^ bits) l).
Proof.
  intros Hb Hl Hc. unfold bitsToChunks. replace (bits <=? dg * 8) with true by lia. cbn [c_assert bind].
  replace (0 <? bits) with true by lia. cbn [guard bind].
  replace (dg * 8 / bits <=? cap) with true by lia. cbn [guard bind].
  eapply ok_mono.
  - apply (ok_mapM_seq (fun _ c => c < 2 ^ bits)). intros i Hi. apply chunk_ok.
    assert ((dg * 8 / bits) * bits <= dg * 8) by (rewrite Nat.mul_comm; apply Nat.mul_div_le; lia).
    assert ((i + 1) * bits <= (dg * 8 / bits) * bits) by (apply Nat.mul_le_mono_r; lia). lia.
  - intros l [Hl1 Hl2]. apply Forall_forall. intros x Hx. apply In_nth_error in Hx.
    destruct Hx as [k Hk]. apply (Hl2 k x Hk).
Qed.

(** Invariants of the two lists. *)
Definition C_inv (C : list nat) : Prop := NoDup C /\ Forall (fun x => x < T) C /\ length C <= u.
Definition P_inv (L : list nat) : Prop := Forall (fun x => x < 16) L /\ length L <= u.

Lemma scan_C_ok chunks : forall C, C_inv C -> length C < u -> ok (scan_C P chunks C) C_inv.
Proof.
  induction chunks as [|x rest IH]; intros C HC Hlt; cbn [scan_C]; [exact HC|].
  destruct HC as (H1 & H2 & H3).
  eapply ok_step with (Q := C_inv).
  - fold T. destruct (Nat.ltb_spec x T) as [Hx|Hx]; [|cbn [ok]; repeat split; auto].
    unfold appendUnique. destruct (contains C x) eqn:Ec; [repeat split; auto|].
    fold u. replace (length C <? u) with true by lia. cbn [guard bind ok].
    split; [|split].
    + apply NoDup_app_intro; auto; [constructor; [auto|constructor]|].
      intros y Hy [<-|[]]. apply contains_false in Ec. contradiction.
    + apply Forall_app. auto.
    + rewrite app_length. cbn. lia.
  - intros C' HC'. fold u. destruct (Nat.eqb_spec (length C') u) as [He|He]; [exact HC'|].
    apply IH; auto. destruct HC' as (_ & _ & H). lia.
Qed.

Lemma scan_P_ok chunks : forall L, P_inv L -> length L < u -> ok (scan_P P chunks L) P_inv.
Proof.
  induction chunks as [|x rest IH]; intros L HL Hlt; cbn [scan_P]; [exact HL|].
  destruct HL as (H1 & H2).
  eapply ok_step with (Q := P_inv).
  - rewrite (w3_N P HP3). destruct (Nat.ltb_spec x 16) as [Hx|Hx]; [|cbn [ok]; split; auto].
    fold u. replace (length L <? u) with true by lia. cbn [guard bind ok].
    split; [apply Forall_app; auto|rewrite app_length; cbn; lia].
  - intros L' HL'. fold u. destruct (Nat.eqb_spec (length L') u) as [He|He]; [exact HL'|].
    apply IH; auto. destruct HL' as (_ & H). lia.
Qed.

Lemma expand_loop_ok scan (I : list nat -> Prop) bits cap :
  0 < bits <= 8 * dg -> dg * 8 / bits <= cap ->
  (forall l, I l -> length l <= u) ->
  (forall chunks l, I l -> length l < u -> ok (scan chunks l) I) ->
  forall fuel h l, I l -> dg <= length h ->
  okf (expand_loop E P fuel bits cap scan h l)
      (fun r => I (fst r) /\ length (fst r) = u /\ dg <= length (snd r)).
Proof.
  intros Hb Hc HI Hs. induction fuel as [|fuel IH]; intros h l Hl Hh; cbn [expand_loop]; fold u dg.
  - destruct (Nat.ltb_spec (length l) u) as [Hlt|Hge]; [constructor|].
    cbn [okf fst snd]. split; [auto|]. split; [apply HI in Hl; lia|auto].
  - destruct (Nat.ltb_spec (length l) u) as [Hlt|Hge].
    + pose proof (bitsToChunks_ok bits h cap Hb Hh Hc) as Hk. apply ok_ex in Hk. destruct Hk as (ch & -> & _).
      cbn [bind]. pose proof (Hs ch l Hl Hlt) as Hk. apply ok_ex in Hk. destruct Hk as (l' & -> & Hl').
      cbn [bind]. rewrite slice0_ok by auto. cbn [bind]. apply IH; auto.
      rewrite hash_length by auto. auto.
    + cbn [okf fst snd]. split; [auto|]. split; [apply HI in Hl; lia|auto].
Qed.

Lemma bits_facts : 0 < ceil_log2_nat T <= 8 * dg /\ 0 < ceil_log2_nat (numMPCParties P) <= 8 * dg.
Proof.
  pose proof (w3_dg P HP3) as Hd. pose proof (w3_u P HP3) as Hu. pose proof (w3_T P HP3) as HT.
  fold dg T u in Hd, Hu, HT. rewrite (w3_N P HP3).
  assert (HB : (N.of_nat T < 2 ^ 32)%N) by (cbn; lia).
  rewrite ceil_log2_nat_spec by (auto; lia).
  assert (1 <= Nat.log2_up T) by (change 1 with (Nat.log2_up 2); apply Nat.log2_up_le_mono; lia).
  assert (Nat.log2_up T <= 10).
  { change 10 with (Nat.log2_up (2 ^ 10)). apply Nat.log2_up_le_mono. exact HT. }
  change (ceil_log2_nat 16) with 4. lia.
Qed.

(** The challenge: [u] distinct rounds and [u] parties. *)
Definition chal_wf (C L : list nat) : Prop :=
  NoDup C /\ length C = u /\ Forall (fun x => x < T) C /\ length L = u /\ Forall (fun x => x < 16) L.

Lemma expandChallengeHash_ok fuel h : dg <= length h ->
  okf (expandChallengeHash E P fuel h) (fun r => chal_wf (fst r) (snd r)).
Proof.
  intros Hh. destruct bits_facts as [HC HP]. unfold expandChallengeHash. fold T dg.
  set (bC := ceil_log2_nat T) in *. set (bP := ceil_log2_nat (numMPCParties P)) in *.
  pose proof (w3_dg P HP3) as Hd. fold dg in Hd.
  replace (0 <? Nat.min bC bP) with true by lia. cbn [guard bind].
  rewrite slice0_ok by auto. cbn [bind].
  unfold MAX_DIGEST_SIZE. replace (dg <=? 64) with true by lia. cbn [guard bind].
  assert (Hcap : forall b, Nat.min bC bP <= b -> 0 < b -> dg * 8 / b <= dg * 8 / Nat.min bC bP).
  { intros b Hb Hb0. apply Nat.div_le_compat_l. lia. }
  eapply okf_stepf.
  - apply (expand_loop_ok (scan_C P) C_inv bC); auto.
    + apply Hcap; lia.
    + intros l (_ & _ & H). exact H.
    + intros. apply scan_C_ok; auto.
    + repeat split; [constructor|constructor|cbn; lia].
    + rewrite firstn_length. lia.
  - intros [C h'] ((H1 & H2 & _) & H3 & H4). cbn [fst snd] in *.
    eapply okf_stepf.
    + apply (expand_loop_ok (scan_P P) P_inv bP); auto.
      * apply Hcap; lia.
      * intros l (_ & H). exact H.
      * intros. apply scan_P_ok; auto.
      * repeat split; [constructor|cbn; lia].
    + intros [L h''] ((G1 & _) & G2 & _). cbn [fst snd okf] in *. repeat split; auto.
Qed.

(** More fuel gives the same result. *)
Lemma expand_loop_mono scan bits cap : forall fuel fuel' h l r, fuel <= fuel' ->
  expand_loop E P fuel bits cap scan h l = Ok r -> expand_loop E P fuel' bits cap scan h l = Ok r.
Proof.
  induction fuel as [|fuel IH]; intros fuel' h l r Hf H.
  - cbn [expand_loop] in H. destruct fuel'; cbn [expand_loop]; destruct (length l <? numOpenedRounds P); auto; discriminate.
  - destruct fuel' as [|fuel']; [lia|]. cbn [expand_loop] in *.
    destruct (length l <? numOpenedRounds P); auto.
    destruct (bitsToChunks bits h (digestSizeBytes P) cap) as [ch| | |]; cbn [bind] in *; try discriminate.
    destruct (scan ch l) as [l'| | |]; cbn [bind] in *; try discriminate.
    destruct (slice h 0 (digestSizeBytes P)) as [hh| | |]; cbn [bind] in *; try discriminate.
    apply IH; auto. lia.
Qed.

Lemma expandChallengeHash_mono fuel fuel' h r : fuel <= fuel' ->
  expandChallengeHash E P fuel h = Ok r -> expandChallengeHash E P fuel' h = Ok r.
Proof.
  intros Hf. unfold expandChallengeHash.
  destruct (guard _) as [x| | |]; cbn [bind]; auto.
  destruct (slice h 0 _) as [h0| | |]; cbn [bind]; auto.
  destruct (guard _) as [y| | |]; cbn [bind]; auto.
  match goal with |- context [expand_loop E P fuel ?b ?c (scan_C P) ?a ?l] =>
    destruct (expand_loop E P fuel b c (scan_C P) a l) as [[C h1]| | |] eqn:E1; cbn [bind]; try discriminate;
    rewrite (expand_loop_mono _ _ _ _ _ _ _ _ Hf E1) end. cbn [bind].
  match goal with |- context [expand_loop E P fuel ?b ?c (scan_P P) ?a ?l] =>
    destruct (expand_loop E P fuel b c (scan_P P) a l) as [[L h2]| | |] eqn:E2; cbn [bind]; try discriminate;
    rewrite (expand_loop_mono _ _ _ _ _ _ _ _ Hf E2) end. cbn [bind]. auto.
Qed.

(** ** Lookup of the unopened party *)
Lemma indexOf_ok C t : In t C -> exists i, indexOf C t = Ok i /\ i < length C /\ nth i C 0 = t.
Proof.
  induction C as [|x C IH]; intros H; [contradiction|]. cbn [indexOf].
  destruct (Nat.eqb_spec x t) as [->|Hne].
  - exists 0. split; [auto|]. cbn. split; [lia|auto].
  - destruct H as [H|H]; [congruence|]. destruct (IH H) as (i & -> & Hi & Hn).
    exists (S i). cbn [bind length nth]. split; [auto|]. split; [lia|auto].
Qed.

(** The party left closed in round [t]. *)
Definition party (C L : list nat) (t : nat) : nat :=
  match unopened_party C L t with Ok p => p | _ => 0 end.

Lemma unopened_party_ok C L t : chal_wf C L -> In t C ->
  unopened_party C L t = Ok (party C L t) /\ party C L t < 16.
Proof.
  intros (H1 & H2 & H3 & H4 & H5) Ht. unfold party, unopened_party.
  destruct (indexOf_ok C t Ht) as (i & -> & Hi & Hn). cbn [bind].
  rewrite (rd_ok L i 0) by lia. split; [auto|].
  rewrite Forall_forall in H5. apply H5, nth_In. lia.
Qed.

(** The rounds not opened. *)
Definition others (C : list nat) : list nat := filter (fun i => negb (contains C i)) (seq 0 T).

Lemma others_In C t : In t (others C) <-> t < T /\ ~ In t C.
Proof.
  unfold others. rewrite filter_In, in_seq, negb_true_iff, contains_false. split; intros [H1 H2]; split; auto; lia.
Qed.

Lemma filter_split {A} (f : A -> bool) l : length (filter f l) + length (filter (fun x => negb (f x)) l) = length l.
Proof. induction l as [|x l IH]; auto. cbn. destruct (f x); cbn; lia. Qed.

Lemma others_length C : NoDup C -> length C = u -> Forall (fun x => x < T) C -> length (others C) = T - u.
Proof.
  intros H1 H2 H3. pose proof (filter_split (contains C) (seq 0 T)) as Hf. rewrite seq_length in Hf.
  assert (Hc : length (filter (contains C) (seq 0 T)) = u).
  { rewrite <- H2. apply Nat.le_antisymm; apply NoDup_incl_length.
    - apply NoDup_filter, seq_NoDup.
    - intros x Hx. apply filter_In in Hx. apply contains_In. apply Hx.
    - auto.
    - intros x Hx. apply filter_In. rewrite Forall_forall in H3. split; [apply in_seq; pose proof (H3 x Hx); lia|].
      apply contains_In. auto. }
  unfold others. lia.
Qed.

Lemma getMissingLeavesList_ok C : NoDup C -> length C = u -> Forall (fun x => x < T) C ->
  getMissingLeavesList P C = Ok (others C).
Proof.
  intros H1 H2 H3. unfold getMissingLeavesList. fold T u. fold (others C).
  rewrite (others_length C) by auto. rewrite Nat.leb_refl. cbn [guard bind].
  rewrite Nat.sub_diag. cbn [repeat]. rewrite app_nil_r. reflexivity.
Qed.

End C.
