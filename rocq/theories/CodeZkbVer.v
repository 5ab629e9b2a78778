(** The S-box layer of the ZKB++ verifier on memory with pointers. *)

From Coq Require Import List NArith Arith Bool Lia ZifyBool ZifyNat ZifyN.
From Verif Require Import Base Params Env Spec LowMC Picnic1 MiniC CodeLowMC CodeZkb CodeSpec BaseFacts ParamFacts LowMCFacts
  MiniCFacts CodeRules CodeLowMCProofs CodeHeap CodeZkbProofs CodeZkbBits CodeZkbSub.
Import ListNotations.

Definition duo_bytes (x : duo bool) : bytes := [b2n (dget x 0); b2n (dget x 1)].
Lemma list2 (l : bytes) a b : length l = 2 -> list_set (list_set l 0 a) 1 b = [a; b].
Proof. intros H. destruct l as [|x [|y [|]]]; try discriminate. reflexivity. Qed.
Lemma lt2_cases j : j < 2 -> j = 0 \/ j = 1.
Proof. lia. Qed.
Lemma duo_nth (t : duo bool) j : j < 2 -> nth j (duo_bytes t) 0%N = b2n (dget t j).
Proof. intros Hj. destruct (lt2_cases j Hj) as [->| ->]; reflexivity. Qed.
Lemma nth2 {A} (a b : A) (f : nat -> A) j : j < 2 -> a = f 0 -> b = f 1 -> nth_error [a; b] j = Some (f j).
Proof. intros Hj -> ->. destruct (lt2_cases j Hj) as [->| ->]; reflexivity. Qed.

Section Z.
Variables (n0 : nat) (m0 : memory) (U : nat -> nat -> bytes) (HU : locals_ok U).
Notation heap := (heap n0 m0).
Notation ro := (ro n0 m0).

(** ** [mpc_AND_verify]. Regions: communicatedBits of view1 0, six others, local arrays 7-12. *)
Section AND.
Variables (L : layout) (ka kb ko : nat) (t0 t1 q2 : ptr) (T0 T1 C2 : bytes) (x z : duo bool) (ps : nat).
Hypothesis HL : cnt L = 13.
Hypothesis Hka : 7 <= ka < 13.
Hypothesis Hkb : 7 <= kb < 13.
Hypothesis Hko : 7 <= ko < 13.
Hypothesis Hao : ka <> ko.
Hypothesis Hbo : kb <> ko.
Hypothesis Sloc : forall k, 7 <= k < 13 -> sz L k = 2.
Hypothesis Scomm : ps < 8 * sz L 0.
Hypothesis R0 : ro L t0 T0. Hypothesis R1 : ro L t1 T1. Hypothesis R2 : ro L q2 C2.
Hypothesis B0 : ps < 8 * length T0. Hypothesis B1 : ps < 8 * length T1. Hypothesis B2 : ps < 8 * length C2.

Definition ANDv_o : bool :=
  xorb (xorb (xorb (xorb (dget x 0 && dget z 1) (dget x 1 && dget z 0)) (dget x 0 && dget z 0)) (bit T0 ps)) (bit T1 ps).

Lemma runs_mpc_AND_verify pa pb po tp k1 k2 v y c (Q : state -> Prop) :
  peval (iv y) (pv y) pa = Some (reg L ka) -> peval (iv y) (pv y) pb = Some (reg L kb) -> peval (iv y) (pv y) po = Some (reg L ko) ->
  pv y tp = [t0; t1] -> peval (iv y) (pv y) k1 = Some (reg L 0) -> peval (iv y) (pv y) k2 = Some q2 -> iv y v = ps ->
  heap L (nx y) (mm y) c -> c ka = duo_bytes x -> c kb = duo_bytes z ->
  (forall m' c' ct', heap L (nx y) m' c' -> c' ko = duo_bytes (ANDv_o, bit C2 ps) ->
     c' 0 = set_bit (c 0) ps ANDv_o -> (forall k, 1 <= k -> k < 13 -> k <> ko -> c' k = c k) ->
     Q (mkState (upd (iv y) v (S ps)) (dv y) (pv y) m' (nx y) ct')) ->
  runs U (c_mpc_AND_verify pa pb po tp k1 k2 v) y Q.
Proof.
  intros Ea Eb Eo Et E1 E2 Ev H Ca Cb HQ. unfold c_mpc_AND_verify. eapply runs_call; [cbn [pargevals pargeval pevals]; rewrite Ea, Eb, Eo, Et, E1, E2; reflexivity|].
  cbn [map ieval]. rewrite Ev. unfold mpc_AND_verify_body. eapply (h_loc n0 m0 U L _ _ _ _ c); [exact HU|exact H|].
  cbn [iv dv pv mm nx ct ieval]. intros b Lb Bb. set (N0 := nx y) in *. set (L' := push L (N0, 0) 2).
  assert (Hn : n0 <= N0) by apply H.
  assert (H1 : heap L' (S N0) (upd (mm y) N0 b) (cset c 13 b)).
  { pose proof (heap_push n0 m0 L N0 (mm y) c b H Bb) as H1. rewrite Lb, HL in H1. exact H1. }
  assert (HL' : cnt L' = 14) by (unfold L'; cbn [cnt push]; rewrite HL; reflexivity).
  assert (G : forall k, k < 13 -> reg L' k = reg L k /\ sz L' k = sz L k).
  { intros k Hk. unfold L'. cbn [push reg sz]. rewrite HL, !upd_neq by lia. auto. }
  assert (G13 : reg L' 13 = (N0, 0) /\ sz L' 13 = 2).
  { unfold L'. cbn [push reg sz]. rewrite HL, !upd_eq. auto. }
  destruct G13 as [G13 G13'].
  assert (S2 : forall k, 7 <= k < 14 -> sz L' k = 2).
  { intros k Hk. destruct (Nat.eq_dec k 13) as [->|Hne]; [exact G13'|]. rewrite (proj2 (G k ltac:(lia))). apply Sloc. lia. }
  assert (R0' : ro L' t0 T0) by (apply ro_push; auto). assert (R1' : ro L' t1 T1) by (apply ro_push; auto). assert (R2' : ro L' q2 C2) by (apply ro_push; auto).
  destruct (G ka ltac:(lia)) as [Ga Ga'], (G kb ltac:(lia)) as [Gb Gb'], (G ko ltac:(lia)) as [Go Go'], (G 0 ltac:(lia)) as [Gi Gi'].
  (* r[] *)
  apply runs_seq. apply (runs_getBit U 0 _ _ _ t0 T0); [csimpl; reflexivity|csimpl; exact (heap_ro _ _ _ _ _ _ _ _ H1 R0')|csimpl; apply lt_div8; exact B0|].
  csimpl. apply runs_seq. eapply (h_st1 n0 m0 U L' _ _ _ _ 13 0 (N0, 0)); [exact H1|lia|exact G13|csimpl; reflexivity|lia|]. csimpl. rewrite b2n_mod. intros ma Ha.
  apply runs_seq. apply (runs_getBit U 0 _ _ _ t1 T1); [csimpl; reflexivity|csimpl; exact (heap_ro _ _ _ _ _ _ _ _ Ha R1')|csimpl; apply lt_div8; exact B1|].
  csimpl. apply runs_seq. eapply (h_st1 n0 m0 U L' _ _ _ _ 13 1 (N0, 0)); [exact Ha|lia|exact G13|csimpl; reflexivity|lia|]. csimpl. rewrite b2n_mod. intros mb Hb.
  rewrite !cset_eq in Hb. rewrite list2 in Hb by exact Lb.
  set (c1 := cset c 13 (duo_bytes (bit T0 ps, bit T1 ps))).
  assert (Hc' : heap L' (S N0) mb c1).
  { apply (heap_ext _ _ _ _ _ _ _ Hb). intros k Hk. unfold c1. destruct (Nat.eq_dec k 13) as [->|Hne]; [rewrite !cset_eq; reflexivity|]. csets. reflexivity. }
  unfold set_mm, set_dv. csimpl. clear Hb Ha H1 ma.
  assert (X1 : c1 ka = duo_bytes x) by (unfold c1; csets; exact Ca). assert (X2 : c1 kb = duo_bytes z) by (unfold c1; csets; exact Cb).
  assert (X3 : c1 13 = duo_bytes (bit T0 ps, bit T1 ps)) by (unfold c1; apply cset_eq).
  assert (X4 : c1 0 = c 0) by (unfold c1; csets; reflexivity). assert (Xr : forall k, k < 13 -> c1 k = c k) by (intros k Hk; unfold c1; csets; reflexivity).
  clearbody c1. unfold byte_at.
  apply runs_seq. eapply (h_ld1 n0 m0 U L' _ _ _ c1 ka 0 (reg L ka)); [exact Hc'|lia|exact Ga|csimpl; apply ptr_add; lia|rewrite S2; lia|]. csimpl. rewrite X1, (duo_nth x 0) by lia.
  apply runs_seq. eapply (h_ld1 n0 m0 U L' _ _ _ c1 kb 1 (reg L kb)); [exact Hc'|lia|exact Gb|csimpl; apply ptr_add; lia|rewrite S2; lia|]. csimpl. rewrite X2, (duo_nth z 1) by lia.
  apply runs_seq. eapply (h_ld1 n0 m0 U L' _ _ _ c1 ka 1 (reg L ka)); [exact Hc'|lia|exact Ga|csimpl; apply ptr_add; lia|rewrite S2; lia|]. csimpl. rewrite X1, (duo_nth x 1) by lia.
  apply runs_seq. eapply (h_ld1 n0 m0 U L' _ _ _ c1 kb 0 (reg L kb)); [exact Hc'|lia|exact Gb|csimpl; apply ptr_add; lia|rewrite S2; lia|]. csimpl. rewrite X2, (duo_nth z 0) by lia.
  apply runs_seq. eapply (h_ld1 n0 m0 U L' _ _ _ c1 13 0 (N0, 0)); [exact Hc'|lia|exact G13|csimpl; peq|rewrite S2; lia|]. csimpl. rewrite X3, (duo_nth _ 0) by lia. cbn [dget fst snd].
  apply runs_seq. eapply (h_ld1 n0 m0 U L' _ _ _ c1 13 1 (N0, 0)); [exact Hc'|lia|exact G13|csimpl; peq|rewrite S2; lia|]. csimpl. rewrite X3, (duo_nth _ 1) by lia. cbn [dget fst snd].
  apply runs_seq. eapply (h_st1 n0 m0 U L' _ _ _ c1 ko 0 (reg L ko)); [exact Hc'|lia|exact Go|csimpl; apply ptr_add; lia|rewrite S2; lia|]. csimpl. rewrite and_val. fold ANDv_o. intros m1 H1.
  apply runs_seq. eapply (h_ld1 n0 m0 U L' _ _ _ _ ko 0 (reg L ko)); [exact H1|lia|exact Go|csimpl; apply ptr_add; lia|rewrite S2; lia|]. csimpl.
  assert (Lo : length (c ko) = 2) by (rewrite (heap_len n0 m0 L _ _ _ H) by lia; apply Sloc; exact Hko).
  rewrite cset_eq, nth_list_set, Nat.eqb_refl by (rewrite Xr by lia; lia).
  apply runs_seq. eapply (h_setBit n0 m0 U L' _ _ _ _ _ 0 ANDv_o) with (1 := H1); [lia|csimpl; rewrite Gi; reflexivity|csimpl; rewrite Gi'; exact Scomm|csimpl; apply b2n_mod|].
  csimpl. intros m2 H2.
  apply runs_seq. apply (runs_getBit U 0 _ _ _ q2 C2); [csimpl; reflexivity|csimpl; exact (heap_ro _ _ _ _ _ _ _ _ H2 R2')|csimpl; apply lt_div8; exact B2|].
  csimpl. apply runs_seq. eapply (h_st1 n0 m0 U L' _ _ _ _ ko 1 (reg L ko)); [exact H2|lia|exact Go|csimpl; apply ptr_add; lia|rewrite S2; lia|]. csimpl. rewrite b2n_mod. intros m3 H3.
  apply runs_iset. csimpl. eexists. split; [exact H3|]. intros m' Hm. rewrite (Nat.add_1_r ps). eapply (HQ m' _ _ Hm).
  - csets. rewrite list2 by (rewrite Xr by lia; exact Lo). reflexivity.
  - csets. rewrite X4. reflexivity.
  - intros k K1 K2 K3. csets. apply Xr. lia.
Qed.
End AND.

(** Reading and writing the three bits of an S-box of one party. Regions: state 1 + j, arrays a, b, c at 7-9. *)
Section Rd.
Variables (L : layout) (N0 i : nat) (pv1 : nat -> list ptr).
Hypothesis HL : cnt L = 10.
Hypothesis Sloc : forall k, 7 <= k < 10 -> sz L k = 2.
Hypothesis Sst : forall j, j < 2 -> i + 3 <= 8 * sz L (1 + j).
Hypothesis P_st : pv1 0 = [reg L 1; reg L 2].
Hypothesis P_loc : forall k, 7 <= k < 10 -> pv1 (k - 3) = [reg L k].

Lemma runs_rd2 j w c (Q : state -> Prop) : j < 2 -> pv w = pv1 -> nx w = N0 -> iv w 1 = i -> iv w 2 = j -> heap L N0 (mm w) c ->
  (forall dd' m' c', heap L N0 m' c' -> c' 7 = list_set (c 7) j (b2n (bit (c (1 + j)) (i + 2))) ->
     c' 8 = list_set (c 8) j (b2n (bit (c (1 + j)) (i + 1))) -> c' 9 = list_set (c 9) j (b2n (bit (c (1 + j)) i)) ->
     (forall k, k <> 7 -> k <> 8 -> k <> 9 -> c' k = c k) -> Q (mkState (iv w) dd' pv1 m' N0 (ct w))) ->
  runs U (Seq (c_getBit 0 (PV 0 (IV 2)) (IAdd (IV 1) (IC 2))) (Seq (St 1 (byte_at 4 (IV 2)) (DV 0))
    (Seq (c_getBit 0 (PV 0 (IV 2)) (IAdd (IV 1) (IC 1))) (Seq (St 1 (byte_at 5 (IV 2)) (DV 0))
    (Seq (c_getBit 0 (PV 0 (IV 2)) (IV 1)) (St 1 (byte_at 6 (IV 2)) (DV 0))))))) w Q.
Proof.
  intros Hj Wp Wn W1 W2 H HQ. destruct w as [wi wd wp wm wn wc]. cbn [iv dv pv mm nx ct] in *. subst wp wn.
  pose proof (Sst j Hj) as Sj. unfold byte_at.
  assert (P3 : pv1 4 = [reg L 7]) by apply (P_loc 7 ltac:(lia)). assert (P4 : pv1 5 = [reg L 8]) by apply (P_loc 8 ltac:(lia)).
  assert (P5 : pv1 6 = [reg L 9]) by apply (P_loc 9 ltac:(lia)).
  assert (E0 : nth_error (pv1 0) j = Some (reg L (1 + j))) by (rewrite P_st; apply (nth2 _ _ (fun j => reg L (1 + j)) j Hj); reflexivity).
  pose proof (Sloc 7 ltac:(lia)) as S12. pose proof (Sloc 8 ltac:(lia)) as S13. pose proof (Sloc 9 ltac:(lia)) as S14.
  eapply runs_seq, (h_getBit n0 m0 U L _ _ _ _ c (1 + j)); [exact H|lia|csimpl; rewrite W2; exact E0|csimpl; rewrite W1; lia|]. csimpl. rewrite W1.
  eapply runs_seq, (h_st1 n0 m0 U L _ _ _ _ 7 j (reg L 7)); [exact H|lia|reflexivity|csimpl; rewrite P3; csimpl; rewrite W2; apply ptr_add; lia|lia|]. csimpl. rewrite b2n_mod. intros ma Ha.
  eapply runs_seq, (h_getBit n0 m0 U L _ _ _ _ _ (1 + j)); [exact Ha|lia|csimpl; rewrite W2; exact E0|csimpl; rewrite W1; lia|]. csimpl. rewrite W1.
  eapply runs_seq, (h_st1 n0 m0 U L _ _ _ _ 8 j (reg L 8)); [exact Ha|lia|reflexivity|csimpl; rewrite P4; csimpl; rewrite W2; apply ptr_add; lia|lia|]. csimpl. rewrite b2n_mod. intros mb Hb.
  eapply runs_seq, (h_getBit n0 m0 U L _ _ _ _ _ (1 + j)); [exact Hb|lia|csimpl; rewrite W2; exact E0|csimpl; rewrite W1; lia|]. csimpl. rewrite W1.
  eapply (h_st1 n0 m0 U L _ _ _ _ 9 j (reg L 9)); [exact Hb|lia|reflexivity|csimpl; rewrite P5; csimpl; rewrite W2; apply ptr_add; lia|lia|]. csimpl. rewrite b2n_mod. intros mc Hc.
  flat. assert (N : forall k, 7 <= k -> S j <> k) by (clear - Hj; lia). eapply HQ; [exact Hc| | | |].
  - csets. reflexivity.
  - csets. reflexivity.
  - csets. reflexivity.
  - intros k K1 K2 K3. csets. reflexivity.
Qed.
End Rd.

Section Wr.
Variables (L : layout) (N0 i : nat) (pv1 : nat -> list ptr).
Hypothesis HL : cnt L = 13.
Hypothesis Sloc : forall k, 7 <= k < 13 -> sz L k = 2.
Hypothesis Sst : forall j, j < 2 -> i + 3 <= 8 * sz L (1 + j).
Hypothesis P_st : pv1 0 = [reg L 1; reg L 2].
Hypothesis P_loc : forall k, 7 <= k < 13 -> pv1 (k - 3) = [reg L k].

Lemma runs_wr2 j w c a b d ab bc ca (Q : state -> Prop) : j < 2 -> pv w = pv1 -> nx w = N0 -> iv w 1 = i -> iv w 2 = j -> heap L N0 (mm w) c ->
  c 7 = duo_bytes a -> c 8 = duo_bytes b -> c 9 = duo_bytes d -> c 10 = duo_bytes ab -> c 11 = duo_bytes bc -> c 12 = duo_bytes ca ->
  (forall dd' m' c', heap L N0 m' c' ->
     c' (1 + j) = set_bit (set_bit (set_bit (c (1 + j)) (i + 2) (xorb (dget a j) (dget bc j))) (i + 1) (xorb (xorb (dget a j) (dget b j)) (dget ca j)))
       i (xorb (xorb (xorb (dget a j) (dget b j)) (dget d j)) (dget ab j)) ->
     (forall k, k <> 1 + j -> c' k = c k) -> Q (mkState (iv w) dd' pv1 m' N0 (ct w))) ->
  runs U (Seq (Ld 1 0 (byte_at 4 (IV 2))) (Seq (Ld 1 1 (byte_at 8 (IV 2)))
   (Seq (c_setBit (PV 0 (IV 2)) (IAdd (IV 1) (IC 2)) (dxor (DV 0) (DV 1)))
   (Seq (Ld 1 0 (byte_at 4 (IV 2))) (Seq (Ld 1 1 (byte_at 5 (IV 2))) (Seq (Ld 1 2 (byte_at 9 (IV 2)))
   (Seq (c_setBit (PV 0 (IV 2)) (IAdd (IV 1) (IC 1)) (dxor (dxor (DV 0) (DV 1)) (DV 2)))
   (Seq (Ld 1 0 (byte_at 4 (IV 2))) (Seq (Ld 1 1 (byte_at 5 (IV 2))) (Seq (Ld 1 2 (byte_at 6 (IV 2))) (Seq (Ld 1 3 (byte_at 7 (IV 2)))
   (c_setBit (PV 0 (IV 2)) (IV 1) (dxor (dxor (dxor (DV 0) (DV 1)) (DV 2)) (DV 3))))))))))))))  w Q.
Proof.
  intros Hj Wp Wn W1 W2 H A12 A13 A14 A15 A16 A17 HQ. destruct w as [wi wd wp wm wn wc]. cbn [iv dv pv mm nx ct] in *. subst wp wn.
  pose proof (Sst j Hj) as Sj. unfold byte_at.
  assert (P3 : pv1 4 = [reg L 7]) by apply (P_loc 7 ltac:(lia)). assert (P4 : pv1 5 = [reg L 8]) by apply (P_loc 8 ltac:(lia)).
  assert (P5 : pv1 6 = [reg L 9]) by apply (P_loc 9 ltac:(lia)). assert (P6 : pv1 7 = [reg L 10]) by apply (P_loc 10 ltac:(lia)).
  assert (P7 : pv1 8 = [reg L 11]) by apply (P_loc 11 ltac:(lia)). assert (P8 : pv1 9 = [reg L 12]) by apply (P_loc 12 ltac:(lia)).
  assert (E0 : nth_error (pv1 0) j = Some (reg L (1 + j))) by (rewrite P_st; apply (nth2 _ _ (fun j => reg L (1 + j)) j Hj); reflexivity).
  assert (SL : forall k, 7 <= k < 13 -> j < sz L k) by (intros k Hk; rewrite Sloc by exact Hk; exact Hj).
  destruct (sbox_val (dget a j) (dget bc j) true true) as (V1 & _). destruct (sbox_val (dget a j) (dget b j) (dget ca j) true) as (_ & V2 & _).
  destruct (sbox_val (dget a j) (dget b j) (dget d j) (dget ab j)) as (_ & _ & V3).
  eapply runs_seq, (h_ld1 n0 m0 U L _ _ _ _ 7 j (reg L 7)); [exact H|lia|reflexivity|csimpl; rewrite P3; csimpl; rewrite W2; apply ptr_add; lia|apply SL; lia|]. csimpl. rewrite A12, duo_nth by exact Hj.
  eapply runs_seq, (h_ld1 n0 m0 U L _ _ _ _ 11 j (reg L 11)); [exact H|lia|reflexivity|csimpl; rewrite P7; csimpl; rewrite W2; apply ptr_add; lia|apply SL; lia|]. csimpl. rewrite A16, duo_nth by exact Hj.
  eapply runs_seq, (h_setBit n0 m0 U L _ _ _ _ _ (1 + j)); [exact H|lia|csimpl; rewrite W2; exact E0|csimpl; rewrite W1; lia|csimpl; exact V1|]. csimpl. rewrite W1. intros ma Ha.
  eapply runs_seq, (h_ld1 n0 m0 U L _ _ _ _ 7 j (reg L 7)); [exact Ha|lia|reflexivity|csimpl; rewrite P3; csimpl; rewrite W2; apply ptr_add; lia|apply SL; lia|]. csimpl. rewrite cset_neq, A12, duo_nth by lia.
  eapply runs_seq, (h_ld1 n0 m0 U L _ _ _ _ 8 j (reg L 8)); [exact Ha|lia|reflexivity|csimpl; rewrite P4; csimpl; rewrite W2; apply ptr_add; lia|apply SL; lia|]. csimpl. rewrite cset_neq, A13, duo_nth by lia.
  eapply runs_seq, (h_ld1 n0 m0 U L _ _ _ _ 12 j (reg L 12)); [exact Ha|lia|reflexivity|csimpl; rewrite P8; csimpl; rewrite W2; apply ptr_add; lia|apply SL; lia|]. csimpl. rewrite cset_neq, A17, duo_nth by lia.
  eapply runs_seq, (h_setBit n0 m0 U L _ _ _ _ _ (1 + j)); [exact Ha|lia|csimpl; rewrite W2; exact E0|csimpl; rewrite W1; lia|csimpl; exact V2|]. csimpl. rewrite W1. intros mb Hb.
  eapply runs_seq, (h_ld1 n0 m0 U L _ _ _ _ 7 j (reg L 7)); [exact Hb|lia|reflexivity|csimpl; rewrite P3; csimpl; rewrite W2; apply ptr_add; lia|apply SL; lia|]. csimpl. rewrite !cset_neq, A12, duo_nth by lia.
  eapply runs_seq, (h_ld1 n0 m0 U L _ _ _ _ 8 j (reg L 8)); [exact Hb|lia|reflexivity|csimpl; rewrite P4; csimpl; rewrite W2; apply ptr_add; lia|apply SL; lia|]. csimpl. rewrite !cset_neq, A13, duo_nth by lia.
  eapply runs_seq, (h_ld1 n0 m0 U L _ _ _ _ 9 j (reg L 9)); [exact Hb|lia|reflexivity|csimpl; rewrite P5; csimpl; rewrite W2; apply ptr_add; lia|apply SL; lia|]. csimpl. rewrite !cset_neq, A14, duo_nth by lia.
  eapply runs_seq, (h_ld1 n0 m0 U L _ _ _ _ 10 j (reg L 10)); [exact Hb|lia|reflexivity|csimpl; rewrite P6; csimpl; rewrite W2; apply ptr_add; lia|apply SL; lia|]. csimpl. rewrite !cset_neq, A15, duo_nth by lia.
  eapply (h_setBit n0 m0 U L _ _ _ _ _ (1 + j)); [exact Hb|lia|csimpl; rewrite W2; exact E0|csimpl; rewrite W1; lia|csimpl; exact V3|]. csimpl. rewrite W1. intros mc Hc.
  flat. eapply HQ; [exact Hc| |].
  - change (S j) with (1 + j). rewrite !cset_eq. reflexivity.
  - intros k K1. rewrite !cset_neq by exact K1. reflexivity.
Qed.
End Wr.
End Z.
