(** The online phase of Picnic3 in closed form. *)

From Coq Require Import List NArith Arith Bool Btauto Lia ZifyBool ZifyNat ZifyN.
From Verif Require Import Base Params Env Spec LowMC Picnic1 Picnic3 BaseFacts ParamFacts LowMCFacts
  LowMCInj UtilFacts Hint ZkbMpc ZkbChal P3Tape P3Aux.
Import ListNotations.

Local Opaque pack.

Definition isu (uo : option nat) (i : nat) : bool :=
  match uo with Some u => i =? u | None => false end.

Lemma nth_map_seq {A} (f : nat -> A) d k q : q < k -> nth q (map f (seq 0 k)) d = f q.
Proof.
  intros H. rewrite (nth_indep _ d (f 0)) by (rewrite map_length, seq_length; auto).
  rewrite map_nth, seq_nth by auto. reflexivity.
Qed.

Section O.
Variable E : env.
Variable P : paramset.

Let n := stateSizeBits P.
Let m := numSboxes P.
Let R := numRounds P.
Let W := stateSizeWords P.
Let sB := stateSizeBytes P.
Let aB := andSizeBytes P.
Let tS := p3_tapeSize P.

(** Broadcast of party [i] for gate [q] of round [j] when the masked state is [v]; [T] are the
    tapes, [uo] the unopened party, whose broadcasts [M] are given. *)
Definition osh (T : nat -> vec) (uo : option nat) (M : vec) (v : vec) (j i q : nat) : bool :=
  if isu uo i then M (n * j + q)
  else xorb (xorb (v (ga q) && T i (2 * n * j + gb q)) (v (gb q) && T i (2 * n * j + ga q)))
            (T i (2 * n * j + n + q)).

(** Masked output of gate [q] of round [j]. *)
Definition ohh (T : nat -> vec) (uo : option nat) (M : vec) (v : vec) (j q : nat) : bool :=
  xorb (xsum 16 (fun i => osh T uo M v j i q)) (v (ga q) && v (gb q)).

(** Masked state after [j] rounds. *)
Fixpoint ost (T : nat -> vec) (uo : option nat) (M key pt : vec) (j : nat) : vec :=
  match j with
  | O => vxor (matvec n (mat_of_bytes W (KMatrix E P 0)) key) pt
  | S j' =>
      let v := ost T uo M key pt j' in
      vxor (vxor (matvec n (mat_of_bytes W (LMatrix E P j')) (hsbox m 0 v (ohh T uo M v j')))
                 (bit (RConstant E P j')))
           (matvec n (mat_of_bytes W (KMatrix E P (S j'))) key)
  end.

Definition given_msgs (uo : option nat) (ml : list bytes) : vec :=
  match uo with Some u => tbit ml u | None => vzero end.

(** All broadcasts. *)
Definition omsgs (tl : list bytes) (uo : option nat) (ml : list bytes) (key pt : vec) : list bytes :=
  map (fun i => pack aB (fun p =>
         if p <? n * R
         then osh (tbit tl) uo (given_msgs uo ml)
                  (ost (tbit tl) uo (given_msgs uo ml) key pt (p / n)) (p / n) i (p mod n)
         else tbit ml i p)) (seq 0 16).

Definition oout (tl : list bytes) (uo : option nat) (ml : list bytes) (key pt : vec) : bytes :=
  pack sB (fun i => if i <? n then ost (tbit tl) uo (given_msgs uo ml) key pt R i else false).

Hypothesis HP3 : wfP3 P.
Let HP := w3_wfP P HP3.
Hypothesis HE : env_bytes_ok E.

Lemma wordToMsgs_ok w ml mp uo :
  rows 16 aB ml -> mp < 8 * aB ->
  ok (wordToMsgs P w (mkMsgs ml mp uo))
     (fun r => ms_pos r = S mp /\ ms_unopened r = uo /\ rows 16 aB (ms_msgs r) /\
        forall i p, i < 16 -> tbit (ms_msgs r) i p = if p =? mp then wbit w i else tbit ml i p).
Proof.
  intros Hm Hp. unfold wordToMsgs. rewrite (w3_N P HP3). cbn [ms_msgs ms_pos ms_unopened].
  eapply ok_step.
  - apply ok_for with (I := fun i (l : list bytes) => rows 16 aB l /\
      forall k p, k < 16 -> tbit l k p = if (k <? i) && (p =? mp) then wbit w k else tbit ml k p).
    + split; [auto|]. intros k p Hk. reflexivity.
    + intros i l Hi [[L1 L2] H]. destruct (L2 i) as [Li Bi]; [lia|].
      rewrite getBit_ok by (apply lt_div8; rewrite length_w16_bytes; lia). cbn [bind].
      rewrite (rd_ok l i []) by lia. cbn [bind].
      rewrite setBit_ok by (apply lt_div8; lia). cbn [bind].
      rewrite wr_ok by lia. cbn [ok]. split.
      * apply rows_set; [split; auto|lia|rewrite length_set_bit; auto|apply bytes_ok_set_bit; auto].
      * intros k p Hk. unfold tbit at 1. rewrite nth_list_set by lia.
        destruct (Nat.eqb_spec k i) as [He|He].
        -- rewrite bit_set_bit by (apply lt_div8; lia). subst k.
           replace (i <? S i) with true by lia. cbn [andb].
           destruct (p =? mp); [reflexivity|].
           change (bit (nth i l []) p) with (tbit l i p). rewrite H by auto.
           replace (i <? i) with false by lia. reflexivity.
        -- change (bit (nth k l []) p) with (tbit l k p). rewrite H by auto.
           replace (k <? S i) with (k <? i) by lia. reflexivity.
  - cbv beta. intros l [H1 H2]. cbn [ok ms_msgs ms_pos ms_unopened].
    repeat (split; [solve [auto]|]). intros i p Hi. rewrite H2 by auto.
    replace (i <? 0 + 16) with true by lia. reflexivity.
Qed.

Lemma p3_mpc_AND_ok a b wa wb tl pos ml mp uo :
  rows 16 tS tl -> pos < 8 * tS -> rows 16 aB ml -> mp < 8 * aB ->
  (forall u, uo = Some u -> u < 16) ->
  let s i := if isu uo i then tbit ml i mp
             else xorb (xorb (a && wbit wb i) (b && wbit wa i)) (tbit tl i pos) in
  ok (p3_mpc_AND E P a b wa wb (mkTapes tl pos) (mkMsgs ml mp uo))
     (fun r => let '(o, tp, ms) := r in
        o = xorb (xsum 16 s) (a && b) /\ tp = mkTapes tl (S pos) /\
        ms_pos ms = S mp /\ ms_unopened ms = uo /\ rows 16 aB (ms_msgs ms) /\
        forall i p, i < 16 -> tbit (ms_msgs ms) i p = if p =? mp then s i else tbit ml i p).
Proof.
  intros Ht Hp Hm Hmp Hu s. unfold p3_mpc_AND.
  rewrite (tapesToWord_ok E P HE) by auto. cbn [bind ms_unopened ms_msgs ms_pos].
  set (ah := w16 _). set (w0 := N.lxor (N.lxor _ _) ah).
  assert (Hw0 : forall i, i < 16 -> wbit w0 i =
            xorb (xorb (a && wbit wb i) (b && wbit wa i)) (tbit tl i pos)).
  { intros i Hi. unfold w0, ah. rewrite !wbit_lxor, !wbit_land, !wbit_extend, wbit_w16 by auto. reflexivity. }
  eapply ok_step with (Q := fun w => forall i, i < 16 -> wbit w i = s i).
  - destruct uo as [u|].
    + pose proof (Hu u eq_refl) as Hu16. destruct Hm as [M1 M2]. destruct (M2 u Hu16) as [Ml Mb].
      rewrite (rd_ok ml u []) by lia. cbn [bind].
      rewrite getBit_ok by (apply lt_div8; lia). cbn [bind].
      rewrite setBit_ok by (apply lt_div8; rewrite length_w16_bytes; lia). cbn [bind].
      set (sb := set_bit _ _ _).
      assert (Lsb : length sb = 2) by (unfold sb; rewrite length_set_bit; reflexivity).
      assert (Bsb : bytes_ok sb) by (apply bytes_ok_set_bit, bytes_ok_w16).
      rewrite bytes_w16_ok by auto. cbn [ok]. intros i Hi. unfold wbit.
      rewrite w16_bytes_val by (apply bytes_ok_nth; auto). rewrite <- two_bytes by auto.
      unfold sb. rewrite bit_set_bit by (apply lt_div8; rewrite length_w16_bytes; lia).
      unfold s, isu. destruct (Nat.eqb_spec i u) as [He|He]; [subst; reflexivity|].
      apply Hw0; auto.
    + cbn [ok]. intros i Hi. rewrite Hw0 by auto. reflexivity.
  - intros w Hw. cbv beta in Hw.
    eapply ok_step; [apply wordToMsgs_ok; auto|].
    cbv beta. intros ms (H1 & H2 & H3 & H4). cbn [ok].
    split; [rewrite parity16_wbit; f_equal; apply xsum_ext; auto|].
    repeat (split; [solve [auto]|]). intros i p Hi. rewrite H4, Hw by auto. reflexivity.
Qed.

(** The three gates of an S-box. *)
Lemma p3_and3_ok a b c wa wb wc tl pos ml mp uo :
  rows 16 tS tl -> pos + 3 <= 8 * tS -> rows 16 aB ml -> mp + 3 <= 8 * aB ->
  (forall u, uo = Some u -> u < 16) ->
  let xa x := match x with 0 => a | 1 => b | _ => c end in
  let xb x := match x with 0 => b | 1 => c | _ => a end in
  let ma x := match x with 0 => wa | 1 => wb | _ => wc end in
  let mb x := match x with 0 => wb | 1 => wc | _ => wa end in
  let s x i := if isu uo i then tbit ml i (mp + x)
               else xorb (xorb (xa x && wbit (mb x) i) (xb x && wbit (ma x) i)) (tbit tl i (pos + x)) in
  forall (Q : bool -> bool -> bool -> tapes_t -> msgs_t -> Prop),
  (forall ms, ms_pos ms = mp + 3 -> ms_unopened ms = uo -> rows 16 aB (ms_msgs ms) ->
     (forall i p, i < 16 -> p < mp \/ mp + 3 <= p -> tbit (ms_msgs ms) i p = tbit ml i p) ->
     (forall i x, i < 16 -> x < 3 -> tbit (ms_msgs ms) i (mp + x) = s x i) ->
     Q (xorb (xsum 16 (s 0)) (a && b)) (xorb (xsum 16 (s 1)) (b && c)) (xorb (xsum 16 (s 2)) (c && a))
       (mkTapes tl (pos + 3)) ms) ->
  forall (B : Type) (k : bool -> bool -> bool -> tapes_t -> msgs_t -> res B) (Z : B -> Prop),
  (forall ab bc ca tp ms, Q ab bc ca tp ms -> ok (k ab bc ca tp ms) Z) ->
  ok ('(ab, tp, ms) <- p3_mpc_AND E P a b wa wb (mkTapes tl pos) (mkMsgs ml mp uo) ;;
      '(bc, tp, ms) <- p3_mpc_AND E P b c wb wc tp ms ;;
      '(ca, tp, ms) <- p3_mpc_AND E P c a wc wa tp ms ;;
      k ab bc ca tp ms) Z.
Proof.
  intros Ht Hp Hm Hmp Hu xa xb ma mb s Q HQ B k Z Hk.
  eapply ok_step; [apply p3_mpc_AND_ok; auto; zlia|].
  cbv beta. intros [[ab tp1] [ml1 mp1 uo1]] (A1 & A2 & A3 & A4 & A5 & A6).
  cbn [ms_pos ms_unopened ms_msgs] in *. subst tp1 mp1 uo1.
  eapply ok_step; [apply p3_mpc_AND_ok; auto; zlia|].
  cbv beta. intros [[bc tp2] [ml2 mp2 uo2]] (B1 & B2 & B3 & B4 & B5 & B6).
  cbn [ms_pos ms_unopened ms_msgs] in *. subst tp2 mp2 uo2.
  eapply ok_step; [apply p3_mpc_AND_ok; auto; zlia|].
  cbv beta. intros [[ca tp3] [ml3 mp3 uo3]] (C1 & C2 & C3 & C4 & C5 & C6).
  cbn [ms_pos ms_unopened ms_msgs] in *. subst tp3 mp3 uo3.
  apply Hk.
  assert (E1 : forall i, i < 16 -> tbit ml1 i (S mp) = tbit ml i (S mp)).
  { intros i Hi. rewrite A6 by auto. replace (S mp =? mp) with false by (clear; lia). reflexivity. }
  assert (E2 : forall i, i < 16 -> tbit ml2 i (S (S mp)) = tbit ml i (S (S mp))).
  { intros i Hi. rewrite B6 by auto. replace (S (S mp) =? S mp) with false by (clear; lia).
    rewrite A6 by auto. replace (S (S mp) =? mp) with false by (clear; lia). reflexivity. }
  assert (S0 : ab = xorb (xsum 16 (s 0)) (a && b)).
  { rewrite A1. f_equal. apply xsum_ext. intros i Hi. unfold s. rewrite !Nat.add_0_r. reflexivity. }
  assert (S1 : bc = xorb (xsum 16 (s 1)) (b && c)).
  { rewrite B1. f_equal. apply xsum_ext. intros i Hi. unfold s. rewrite E1 by auto.
    replace (mp + 1) with (S mp) by (clear; lia). replace (pos + 1) with (S pos) by (clear; lia). reflexivity. }
  assert (S2 : ca = xorb (xsum 16 (s 2)) (c && a)).
  { rewrite C1. f_equal. apply xsum_ext. intros i Hi. unfold s. rewrite E2 by auto.
    replace (mp + 2) with (S (S mp)) by (clear; lia).
    replace (pos + 2) with (S (S pos)) by (clear; lia). reflexivity. }
  rewrite S0, S1, S2. replace (S (S (S pos))) with (pos + 3) by (clear; lia).
  apply HQ; cbn [ms_pos ms_unopened ms_msgs]; auto.
  - clear; lia.
  - intros i p Hi Hpp. rewrite C6 by auto.
    replace (p =? S (S mp)) with false by (clear - Hpp; lia). rewrite B6 by auto.
    replace (p =? S mp) with false by (clear - Hpp; lia). rewrite A6 by auto.
    replace (p =? mp) with false by (clear - Hpp; lia). reflexivity.
  - intros i x Hi Hx. destruct x as [|[|[|x]]]; [| | |clear - Hx; lia].
    + replace (mp + 0) with mp by (clear; lia). rewrite C6 by auto.
      replace (mp =? S (S mp)) with false by (clear; lia). rewrite B6 by auto.
      replace (mp =? S mp) with false by (clear; lia). rewrite A6, Nat.eqb_refl by auto.
      unfold s. rewrite !Nat.add_0_r. reflexivity.
    + replace (mp + 1) with (S mp) by (clear; lia). rewrite C6 by auto.
      replace (S mp =? S (S mp)) with false by (clear; lia). rewrite B6, Nat.eqb_refl by auto.
      unfold s. rewrite E1 by auto. replace (mp + 1) with (S mp) by (clear; lia).
      replace (pos + 1) with (S pos) by (clear; lia). reflexivity.
    + replace (mp + 2) with (S (S mp)) by (clear; lia). rewrite C6 by auto. rewrite Nat.eqb_refl.
      unfold s. rewrite E2 by auto. replace (mp + 2) with (S (S mp)) by (clear; lia).
      replace (pos + 2) with (S (S pos)) by (clear; lia). reflexivity.
Qed.

Lemma given_at uo ml i p : isu uo i = true -> given_msgs uo ml p = tbit ml i p.
Proof.
  unfold isu, given_msgs. destruct uo as [u|]; [|discriminate]. intros H.
  apply Nat.eqb_eq in H. subst. reflexivity.
Qed.

Lemma osh_at T uo M v j i k x : x < 3 ->
  osh T uo M v j i (3 * k + x) =
  if isu uo i then M (n * j + (3 * k + x))
  else xorb (xorb (v (gin1 k x) && T i (2 * n * j + gin2 k x))
                  (v (gin2 k x) && T i (2 * n * j + gin1 k x)))
            (T i (2 * n * j + n + (3 * k + x))).
Proof. intros Hx. unfold osh. rewrite ga_at, gb_at by auto. reflexivity. Qed.

Lemma p3_mpc_sbox_ok state tl j ml uo :
  rows 16 tS tl -> rows 16 aB ml -> j < R -> length state = 64 -> bytes_ok state ->
  (forall u, uo = Some u -> u < 16) ->
  ok (p3_mpc_sbox E P state (map (fun q => w16 (fun i => tbit tl i (2 * n * j + q))) (seq 0 n))
        (mkTapes tl (2 * n * j + n)) (mkMsgs ml (n * j) uo))
     (fun r => let '(st', tp, ms) := r in
        tp = mkTapes tl (2 * n * j + n + n) /\ ms_pos ms = n * j + n /\ ms_unopened ms = uo /\
        rows 16 aB (ms_msgs ms) /\
        (forall i p, i < 16 -> p < n * j \/ n * j + n <= p -> tbit (ms_msgs ms) i p = tbit ml i p) /\
        (forall i q, i < 16 -> q < n ->
           tbit (ms_msgs ms) i (n * j + q) = osh (tbit tl) uo (given_msgs uo ml) (bit state) j i q) /\
        length st' = 64 /\ bytes_ok st' /\
        forall i, bit st' i = hsbox m 0 (bit state) (ohh (tbit tl) uo (given_msgs uo ml) (bit state) j) i).
Proof.
  intros Ht Hm Hj Hs Bs Hu.
  pose proof (w3_m P HP3) as Hnm. fold m n in Hnm.
  pose proof (aB_nR P HP3) as Ha. fold aB n R in Ha.
  pose proof (tS_bits P HP3) as Hb. fold tS n R in Hb.
  pose proof (sB_W P HP3) as (Hs1 & Hs2 & Hs3 & Hs4 & Hs5). fold n sB W in Hs1, Hs2, Hs3, Hs4, Hs5.
  assert (J1 : n * j + n <= n * R) by (clear - Hj; nia).
  assert (J2 : 2 * n * j + n + n <= 2 * n * R) by (clear - Hj; nia).
  set (v := bit state). set (M := given_msgs uo ml). set (h := ohh (tbit tl) uo M v j).
  unfold p3_mpc_sbox. fold m.
  eapply ok_mono.
  - apply ok_for with (I := fun k (r : bytes * tapes_t * msgs_t) => let '(st', tp, ms) := r in
        tp = mkTapes tl (2 * n * j + n + 3 * k) /\ ms_pos ms = n * j + 3 * k /\ ms_unopened ms = uo /\
        rows 16 aB (ms_msgs ms) /\
        (forall i p, i < 16 -> p < n * j \/ n * j + 3 * k <= p -> tbit (ms_msgs ms) i p = tbit ml i p) /\
        (forall i q, i < 16 -> q < 3 * k -> tbit (ms_msgs ms) i (n * j + q) = osh (tbit tl) uo M v j i q) /\
        length st' = 64 /\ bytes_ok st' /\ forall i, bit st' i = hsbox k 0 v h i).
    + cbn [ms_pos ms_unopened ms_msgs]. split; [f_equal; clear; lia|]. split; [clear; lia|].
      repeat (split; [solve [auto]|]). split; [intros; clear - H0; lia|]. repeat (split; [solve [auto]|]).
      intros i. rewrite hsbox_out by (clear; lia). reflexivity.
    + intros k [[st tp] [mk pk uk]] Hk (H1 & H2 & H3 & H4 & H5 & H6 & H7 & H8 & H9).
      cbn [ms_pos ms_unopened ms_msgs] in *. subst tp pk uk.
      rewrite !getBit_ok by (apply lt_div8; zlia). cbn [bind].
      rewrite !(rd_ok _ _ 0%N) by (rewrite map_length, seq_length; zlia). cbn [bind].
      assert (Hnth : forall q, q < n -> nth q (map (fun q => w16 (fun i => tbit tl i (2 * n * j + q))) (seq 0 n)) 0%N
                      = w16 (fun i => tbit tl i (2 * n * j + q))).
      { intros q Hq. rewrite nth_map_seq by auto. reflexivity. }
      rewrite !Hnth by zlia.
      assert (V : forall x, x < 3 -> bit st (3 * k + x) = v (3 * k + x)).
      { intros x Hx. rewrite H9. apply hsbox_out. clear; lia. }
      assert (V0 : bit st (3 * k) = v (3 * k)).
      { pose proof (V 0 ltac:(lia)) as V0. rewrite Nat.add_0_r in V0. exact V0. }
      rewrite (V 2), (V 1), V0 by (clear; lia).
      assert (Hos : forall x i, x < 3 -> i < 16 ->
        (if isu uo i then tbit mk i (n * j + 3 * k + x) else
          xorb (xorb (v (gin1 k x) && tbit tl i (2 * n * j + gin2 k x))
                     (v (gin2 k x) && tbit tl i (2 * n * j + gin1 k x)))
               (tbit tl i (2 * n * j + n + 3 * k + x)))
        = osh (tbit tl) uo M v j i (3 * k + x)).
      { intros x i Hx Hi. rewrite osh_at by auto. rewrite <- !Nat.add_assoc.
        destruct (isu uo i) eqn:Eu; [|reflexivity].
        unfold M. rewrite (given_at uo ml i) by auto. apply H5; auto. right. clear; lia. }
      assert (Lt0 : 0 < 3) by (clear; lia). assert (Lt1 : 1 < 3) by (clear; lia).
      assert (Lt2 : 2 < 3) by (clear; lia).
      eapply (p3_and3_ok) with (Q := fun ab bc ca tp ms =>
         tp = mkTapes tl (2 * n * j + n + 3 * S k) /\ ms_pos ms = n * j + 3 * S k /\ ms_unopened ms = uo /\
         rows 16 aB (ms_msgs ms) /\
         (forall i p, i < 16 -> p < n * j \/ n * j + 3 * S k <= p -> tbit (ms_msgs ms) i p = tbit ml i p) /\
         (forall i q, i < 16 -> q < 3 * S k -> tbit (ms_msgs ms) i (n * j + q) = osh (tbit tl) uo M v j i q) /\
         ab = h (0 + 3 * k) /\ bc = h (0 + 3 * k + 1) /\ ca = h (0 + 3 * k + 2)).
      * exact Ht.
      * fold tS. zlia.
      * exact H4.
      * fold aB. zlia.
      * exact Hu.
      * intros ms Q1 Q2 Q3 Q4 Q5.
        split; [f_equal; clear; lia|]. split; [rewrite Q1; clear; lia|]. split; [auto|]. split; [auto|].
        assert (HS : forall x i, x < 3 -> i < 16 -> tbit (ms_msgs ms) i (n * j + 3 * k + x) =
                       osh (tbit tl) uo M v j i (3 * k + x)).
        { intros x i Hx Hi. rewrite Q5 by auto. rewrite <- Hos by auto.
          destruct (isu uo i); [reflexivity|].
          destruct x as [|[|[|x]]]; [| | |clear - Hx; lia]; rewrite !wbit_w16 by auto; unfold gin1, gin2;
            rewrite ?Nat.add_0_r; reflexivity. }
        assert (HX : forall x, x < 3 -> h (3 * k + x) =
             xorb (xsum 16 (fun i => osh (tbit tl) uo M v j i (3 * k + x))) (v (gin1 k x) && v (gin2 k x))).
        { intros x Hx. unfold h, ohh. rewrite ga_at, gb_at by auto. reflexivity. }
        split; [|split].
        -- intros i p Hi Hp. rewrite Q4 by (auto; clear - Hp; lia). apply H5; auto. clear - Hp; lia.
        -- intros i q Hi Hq. destruct (Nat.lt_ge_cases q (3 * k)) as [Hlt|Hge].
           ++ rewrite Q4 by (auto; clear - Hlt; lia). apply H6; auto.
           ++ assert (exists x, x < 3 /\ q = 3 * k + x) as (x & Hx & ->) by (exists (q - 3 * k); clear - Hq Hge; lia).
              rewrite Nat.add_assoc. apply HS; auto.
        -- pose proof (HX 0 Lt0) as X0. pose proof (HX 1 Lt1) as X1.
           pose proof (HX 2 Lt2) as X2. unfold gin1, gin2 in X0, X1, X2.
           rewrite Nat.add_0_r in X0. cbn [Nat.add]. rewrite X0, X1, X2.
           split; [|split]; (f_equal; apply xsum_ext; intros i Hi).
           ++ pose proof (Hos 0 i Lt0 Hi) as Ho0. rewrite (Nat.add_0_r (3 * k)) in Ho0. rewrite <- Ho0.
              destruct (isu uo i); [reflexivity|]. rewrite !wbit_w16 by auto. reflexivity.
           ++ rewrite <- Hos by (auto; clear; lia).
              destruct (isu uo i); [reflexivity|]. rewrite !wbit_w16 by auto. reflexivity.
           ++ rewrite <- Hos by (auto; clear; lia).
              destruct (isu uo i); [reflexivity|]. rewrite !wbit_w16 by auto. reflexivity.
      * cbv beta. intros ab bc ca tp ms (Q1 & Q2 & Q3 & Q4 & Q5 & Q6 & Q7 & Q8 & Q9).
        pose proof (sbox_write_spec st k 0 v h (v (3 * k + 2)) (v (3 * k + 1)) (v (3 * k)) ab bc ca) as HW.
        specialize (HW ltac:(clear - H7 Hk Hnm Hs1 Hs2 Hs3; lia) H9 eq_refl eq_refl eq_refl Q7 Q8 Q9).
        apply ok_ex in HW. destruct HW as (o & Eo & O1 & O2 & O3). unfold sbox_write in Eo.
        destruct (setBit st (3 * k + 2) _) as [o2| | |]; cbn [bind] in Eo |- *; try discriminate.
        destruct (setBit o2 (3 * k + 1) _) as [o1| | |]; cbn [bind] in Eo |- *; try discriminate.
        rewrite Eo. cbn [bind ok]. repeat (split; [solve [auto]|]).
        split; [congruence|]. split; auto.
  - cbv beta. intros [[st' tp] ms]. change (0 + m) with m. rewrite Hnm. auto.
Qed.

Lemma osh_ext T uo M M' v v' j i q :
  veq n v v' -> (forall p, n * j <= p < n * j + n -> M p = M' p) -> q < n ->
  osh T uo M v j i q = osh T uo M' v' j i q.
Proof.
  intros Hv HM Hq. unfold osh. destruct (ga_lt P HP3 q Hq) as [G1 G2]. fold n in G1, G2.
  rewrite (Hv (ga q)), (Hv (gb q)) by auto. destruct (isu uo i); [|reflexivity].
  apply HM. clear - Hq; lia.
Qed.

Lemma ohh_ext T uo M M' v v' j q :
  veq n v v' -> (forall p, n * j <= p < n * j + n -> M p = M' p) -> q < n ->
  ohh T uo M v j q = ohh T uo M' v' j q.
Proof.
  intros Hv HM Hq. unfold ohh. destruct (ga_lt P HP3 q Hq) as [G1 G2]. fold n in G1, G2.
  rewrite (Hv (ga q)), (Hv (gb q)) by auto. f_equal. apply xsum_ext. intros i Hi.
  apply osh_ext; auto.
Qed.

Hypothesis HC : constants_ok E P.

Lemma simulateOnline_ok mk tl ml uo pt pub :
  rows 16 tS tl -> rows 16 aB ml -> (forall u, uo = Some u -> u < 16) ->
  n <= 8 * length mk -> bytes_ok mk -> 4 * W <= length pt -> bytes_ok pt -> sB <= length pub ->
  simulateOnline E P mk (mkTapes tl 0) (mkMsgs ml 0 uo) pt pub =
  Ok (eqb_bytes (oout tl uo ml (bit mk) (bit pt)) (firstn sB pub),
      mkMsgs (omsgs tl uo ml (bit mk) (bit pt)) (n * R) uo).
Proof.
  intros Ht Hm Hu Lk Bk Lp Bp Lb.
  pose proof (w3_m P HP3) as Hnm. fold m n in Hnm.
  pose proof (aB_nR P HP3) as Ha. fold aB n R in Ha.
  pose proof (tS_bits P HP3) as Hb. fold tS n R in Hb.
  pose proof (sB_W P HP3) as (Hs1 & Hs2 & Hs3 & Hs4 & Hs5). fold n sB W in Hs1, Hs2, Hs3, Hs4, Hs5.
  pose proof (n_pos P HP3) as Hn. fold n in Hn.
  pose proof (wf_r P HP) as Hr. fold R in Hr.
  destruct HC as (HK & HL & HR). fold R n W in HK, HL, HR.
  set (T := tbit tl). set (M := given_msgs uo ml).
  set (st := ost T uo M (bit mk) (bit pt)).
  assert (Main : ok (simulateOnline E P mk (mkTapes tl 0) (mkMsgs ml 0 uo) pt pub)
     (fun r => r = (eqb_bytes (oout tl uo ml (bit mk) (bit pt)) (firstn sB pub),
      mkMsgs (omsgs tl uo ml (bit mk) (bit pt)) (n * R) uo))).
  2:{ apply ok_ex in Main. destruct Main as (r & -> & ->). reflexivity. }
  unfold simulateOnline. fold n W R sB. unfold LOWMC_MAX_STATE_BYTES.
  destruct (HK 0) as [K0l K0b]; [clear; lia|].
  eapply ok_step; [apply matrix_mul_spec; auto; fold n W; rewrite ?length_zeros; clear - Hs2 Lk; lia|].
  cbv beta. fold n W. intros rk0 (R1 & R2 & R3). rewrite length_zeros in R1.
  specialize (R2 (bytes_ok_zeros 64)).
  eapply ok_step; [apply xor_array_spec; rewrite ?length_zeros; clear - Hs2 R1 Lp; lia|].
  cbv beta. intros s0 (S1 & S2 & S3). rewrite length_zeros in S1.
  specialize (S2 (bytes_ok_zeros 64) R2 Bp).
  eapply ok_step.
  - apply ok_for with (I := fun r (s : bytes * bytes * tapes_t * msgs_t) => let '(state, rk, tp, ms) := s in
      tp = mkTapes tl (2 * n * (r - 1)) /\ ms_pos ms = n * (r - 1) /\ ms_unopened ms = uo /\
      rows 16 aB (ms_msgs ms) /\
      (forall i p, i < 16 -> n * (r - 1) <= p -> tbit (ms_msgs ms) i p = tbit ml i p) /\
      (forall i j q, i < 16 -> j < r - 1 -> q < n ->
          tbit (ms_msgs ms) i (n * j + q) = osh T uo M (st j) j i q) /\
      length state = 64 /\ bytes_ok state /\ length rk = 64 /\ bytes_ok rk /\
      veq n (bit state) (st (r - 1)) /\
      (1 < r -> forall i, n <= i < 32 * W -> bit state i = false)).
    + cbn [ms_pos ms_unopened ms_msgs]. split; [f_equal; clear; lia|]. split; [clear; lia|].
      repeat (split; [solve [auto]|]). split; [intros; clear - H0; lia|]. repeat (split; [solve [auto]|]).
      split; [|intros; clear - H; lia].
      intros i Hi. change (1 - 1) with 0. unfold st. cbn [ost]. fold n W. rewrite S3.
      replace (i <? 32 * W) with true by (clear - Hi Hs4; lia). rewrite R3.
      replace (i <? n) with true by (clear - Hi; lia). reflexivity.
    + intros r [[[state rk] tp] [mr pr ur]] Hr0 (I1 & I2 & I3 & I4 & I5 & I6 & I7 & I8 & I9 & I10 & I11 & I12).
      cbn [ms_pos ms_unopened ms_msgs] in *. subst tp pr ur.
      assert (exists j, r = S j /\ j < R) as (j & -> & Hj) by (exists (r - 1); clear - Hr0; lia).
      replace (S j - 1) with j in * by (clear; lia). replace (S (S j) - 1) with (S j) by (clear; lia).
      assert (J2 : 2 * n * j + n + n <= 2 * n * R) by (clear - Hj; nia).
      rewrite (tapesToWords_ok E P HE) by (auto; fold tS; clear - J2 Hb; lia). cbn [bind].
      eapply ok_step; [apply p3_mpc_sbox_ok; auto|].
      cbv beta. intros [[x1 tp1] [m1 p1 u1]] (A1 & A2 & A3 & A4 & A5 & A6 & A7 & A8 & A9).
      cbn [ms_pos ms_unopened ms_msgs] in *. subst tp1 p1 u1.
      assert (HM : forall p, n * j <= p < n * j + n -> given_msgs uo mr p = M p).
      { intros p Hp. unfold M, given_msgs. destruct uo as [u|]; [|reflexivity].
        apply I5; [apply Hu; auto|]. clear - Hp; lia. }
      assert (HX1 : veq n (bit x1) (hsbox m 0 (st j) (ohh T uo M (st j) j))).
      { intros i Hi. rewrite A9. apply (hsbox_ext n); [clear - Hnm; lia|exact I11| |exact Hi].
        intros p Hp. fold T. apply ohh_ext; [exact I11|exact HM|clear - Hp Hnm; lia]. }
      destruct (HL j Hj) as [HLl HLb].
      eapply ok_step; [apply matrix_mul_spec; auto; fold n W; clear - A7 Hs2 Hs4; lia|].
      cbv beta. fold n W. intros x2 (B1 & B2 & B3). specialize (B2 A8).
      destruct (HR j Hj) as (HRl & HRb & HRz).
      eapply ok_step; [apply xor_array_spec; clear - A7 B1 Hs2 HRl; lia|].
      cbv beta. intros x3 (C1 & C2 & C3). specialize (C2 B2 B2 HRb).
      destruct (HK (S j)) as [HKl HKb]; [clear - Hj; lia|].
      eapply ok_step; [apply matrix_mul_spec; auto; fold n W; clear - I9 Hs2 Lk; lia|].
      cbv beta. fold n W. intros rk' (D1 & D2 & D3). specialize (D2 I10).
      eapply ok_step; [apply xor_array_spec; clear - A7 B1 C1 Hs2 D1 I9; lia|].
      cbv beta. intros x4 (F1 & F2 & F3). specialize (F2 C2 D2 C2).
      cbn [ok ms_pos ms_unopened ms_msgs].
      split; [f_equal; clear; lia|]. split; [clear; lia|]. split; [auto|]. split; [auto|].
      split. { intros i p Hi Hp. rewrite A5 by (auto; clear - Hp; lia). apply I5; auto. clear - Hp; lia. }
      split.
      { intros i j' q Hi Hj' Hq. destruct (Nat.eq_dec j' j) as [->|Hne].
        - rewrite A6 by auto. fold T. apply osh_ext; [exact I11|exact HM|exact Hq].
        - rewrite A5 by (auto; left; clear - Hj' Hne Hq; nia). apply I6; auto. clear - Hj' Hne; lia. }
      split; [congruence|]. split; [auto|]. split; [congruence|]. split; [auto|].
      assert (Hx : forall i, i < 32 * W -> bit x4 i = xorb (bit rk' i) (xorb (bit x2 i) (bit (RConstant E P j) i))).
      { intros i Hi. rewrite F3, C3. replace (i <? 32 * W) with true by (clear - Hi; lia). reflexivity. }
      split.
      * intros i Hi. rewrite Hx by (clear - Hi Hs4; lia). rewrite D3, B3.
        replace (i <? n) with true by (clear - Hi; lia).
        unfold st. cbn [ost]. fold st. fold n W m. unfold vxor.
        rewrite (matvec_ext _ _ _ _ i HX1). clear. btauto.
      * intros _ i Hi. rewrite Hx by (clear - Hi Hs4; lia). rewrite D3, B3.
        replace (i <? n) with false by (clear - Hi; lia).
        replace (i <? 32 * W) with true by (clear - Hi; lia). rewrite HRz by (clear - Hi; lia). reflexivity.
  - cbv beta. intros [[[state rk] tp] [mr pr ur]] (I1 & I2 & I3 & I4 & I5 & I6 & I7 & I8 & I9 & I10 & I11 & I12).
    cbn [ms_pos ms_unopened ms_msgs] in *. replace (1 + R - 1) with R in * by (clear; lia). subst tp pr ur.
    rewrite memcmp_ok by (clear - I7 Hs1 Hs2 Lb; lia). cbn [bind ok].
    f_equal; f_equal.
    + f_equal. unfold oout. apply pack_unique.
      * rewrite firstn_length. clear - I7 Hs1 Hs2; lia.
      * apply Forall_firstn; auto.
      * intros k Hk. rewrite bit_firstn by (clear - Hk; lia).
        destruct (k <? n) eqn:Ek.
        -- apply I11. clear - Ek; lia.
        -- apply I12; [clear - Hr; lia|]. clear - Ek Hk Hs1; lia.
    + apply (rows_ext _ _ _ _ I4).
      * unfold omsgs. split; [rewrite map_length, seq_length; reflexivity|].
        intros i Hi. rewrite nth_map_seq by auto.
        pose proof (pack_spec aB) as Hps. split; apply Hps.
      * intros i p Hi Hp. unfold omsgs, tbit at 2. rewrite nth_map_seq by auto.
        destruct (pack_spec aB (fun p => if p <? n * R
           then osh (tbit tl) uo (given_msgs uo ml)
                  (ost (tbit tl) uo (given_msgs uo ml) (bit mk) (bit pt) (p / n)) (p / n) i (p mod n)
           else tbit ml i p)) as (_ & _ & ->).
        replace (p <? 8 * aB) with true by (clear - Hp; lia).
        fold T M st. destruct (p <? n * R) eqn:Ep.
        -- assert (p / n < R) by (apply Nat.div_lt_upper_bound; clear - Ep Hn; lia).
           assert (p mod n < n) by (apply Nat.mod_upper_bound; clear - Hn; lia).
           rewrite <- I6 by auto. f_equal. apply Nat.div_mod. clear - Hn; lia.
        -- apply I5; auto. clear - Ep; lia.
Qed.

End O.
