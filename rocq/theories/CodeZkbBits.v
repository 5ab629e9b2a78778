(** The bits of one S-box of the ZKB++ computations on memory with pointers. *)

From Coq Require Import List NArith Arith Bool Lia ZifyBool ZifyNat ZifyN.
From Verif Require Import Base Params Env Spec LowMC Picnic1 MiniC CodeLowMC CodeZkb CodeSpec BaseFacts ParamFacts LowMCFacts
  MiniCFacts CodeRules CodeLowMCProofs CodeHeap CodeZkbProofs.
Import ListNotations.

Lemma nth3 {A} (a b c : A) (f : nat -> A) j : j < 3 -> a = f 0 -> b = f 1 -> c = f 2 -> nth_error [a; b; c] j = Some (f j).
Proof. intros Hj -> -> ->. destruct j as [|[|[|j]]]; [reflexivity|reflexivity|reflexivity|lia]. Qed.
Lemma tri_nth (t : tri bool) j : j < 3 -> nth j (tri_bytes t) 0%N = b2n (tget t j).
Proof. intros Hj. destruct j as [|[|[|j]]]; [reflexivity|reflexivity|reflexivity|lia]. Qed.
Lemma sbox_val a b c d : N.modulo (N.lxor (b2n a) (b2n b)) 256 = b2n (xorb a b) /\
  N.modulo (N.lxor (N.lxor (b2n a) (b2n b)) (b2n c)) 256 = b2n (xorb (xorb a b) c) /\
  N.modulo (N.lxor (N.lxor (N.lxor (b2n a) (b2n b)) (b2n c)) (b2n d)) 256 = b2n (xorb (xorb (xorb a b) c) d).
Proof. destruct a, b, c, d; repeat split; reflexivity. Qed.

(** The state as a record. *)
Ltac flat := cbv beta iota delta [set_mm set_dv set_iv set_pv iv dv pv mm nx ct].

Section Z.
Variables (n0 : nat) (m0 : memory) (U : nat -> nat -> bytes) (HU : locals_ok U).
Notation heap := (heap n0 m0).
Notation ro := (ro n0 m0).

(** Reading and writing the three bits of an S-box of one party. Regions: state 3 + j, arrays a, b, c, ab, bc, ca at 12-17. *)
Section Bits.
Variables (L : layout) (N0 i : nat) (pv1 : nat -> list ptr).
Hypothesis HL : cnt L = 18.
Hypothesis Sloc : forall k, 12 <= k < 18 -> sz L k = 3.
Hypothesis Sst : forall j, j < 3 -> i + 3 <= 8 * sz L (3 + j).
Hypothesis P_st : pv1 0 = [reg L 3; reg L 4; reg L 5].
Hypothesis P_loc : forall k, 12 <= k < 18 -> pv1 (k - 9) = [reg L k].

Lemma runs_rd j w c (Q : state -> Prop) : j < 3 -> pv w = pv1 -> nx w = N0 -> iv w 1 = i -> iv w 2 = j -> heap L N0 (mm w) c ->
  (forall dd' m' c', heap L N0 m' c' -> c' 12 = list_set (c 12) j (b2n (bit (c (3 + j)) (i + 2))) ->
     c' 13 = list_set (c 13) j (b2n (bit (c (3 + j)) (i + 1))) -> c' 14 = list_set (c 14) j (b2n (bit (c (3 + j)) i)) ->
     (forall k, k <> 12 -> k <> 13 -> k <> 14 -> c' k = c k) -> Q (mkState (iv w) dd' pv1 m' N0 (ct w))) ->
  runs U (Seq (c_getBit 0 (PV 0 (IV 2)) (IAdd (IV 1) (IC 2))) (Seq (St 1 (byte_at 3 (IV 2)) (DV 0))
    (Seq (c_getBit 0 (PV 0 (IV 2)) (IAdd (IV 1) (IC 1))) (Seq (St 1 (byte_at 4 (IV 2)) (DV 0))
    (Seq (c_getBit 0 (PV 0 (IV 2)) (IV 1)) (St 1 (byte_at 5 (IV 2)) (DV 0))))))) w Q.
Proof.
  intros Hj Wp Wn W1 W2 H HQ. destruct w as [wi wd wp wm wn wc]. cbn [iv dv pv mm nx ct] in *. subst wp wn.
  pose proof (Sst j Hj) as Sj. unfold byte_at.
  assert (P3 : pv1 3 = [reg L 12]) by apply (P_loc 12 ltac:(lia)). assert (P4 : pv1 4 = [reg L 13]) by apply (P_loc 13 ltac:(lia)).
  assert (P5 : pv1 5 = [reg L 14]) by apply (P_loc 14 ltac:(lia)).
  assert (E0 : nth_error (pv1 0) j = Some (reg L (3 + j))) by (rewrite P_st; apply (nth3 _ _ _ (fun j => reg L (3 + j)) j Hj); reflexivity).
  pose proof (Sloc 12 ltac:(lia)) as S12. pose proof (Sloc 13 ltac:(lia)) as S13. pose proof (Sloc 14 ltac:(lia)) as S14.
  eapply runs_seq, (h_getBit n0 m0 U L _ _ _ _ c (3 + j)); [exact H|lia|csimpl; rewrite W2; exact E0|csimpl; rewrite W1; lia|]. csimpl. rewrite W1.
  eapply runs_seq, (h_st1 n0 m0 U L _ _ _ _ 12 j (reg L 12)); [exact H|lia|reflexivity|csimpl; rewrite P3; csimpl; rewrite W2; apply ptr_add; lia|lia|]. csimpl. rewrite b2n_mod. intros ma Ha.
  eapply runs_seq, (h_getBit n0 m0 U L _ _ _ _ _ (3 + j)); [exact Ha|lia|csimpl; rewrite W2; exact E0|csimpl; rewrite W1; lia|]. csimpl. rewrite W1.
  eapply runs_seq, (h_st1 n0 m0 U L _ _ _ _ 13 j (reg L 13)); [exact Ha|lia|reflexivity|csimpl; rewrite P4; csimpl; rewrite W2; apply ptr_add; lia|lia|]. csimpl. rewrite b2n_mod. intros mb Hb.
  eapply runs_seq, (h_getBit n0 m0 U L _ _ _ _ _ (3 + j)); [exact Hb|lia|csimpl; rewrite W2; exact E0|csimpl; rewrite W1; lia|]. csimpl. rewrite W1.
  eapply (h_st1 n0 m0 U L _ _ _ _ 14 j (reg L 14)); [exact Hb|lia|reflexivity|csimpl; rewrite P5; csimpl; rewrite W2; apply ptr_add; lia|lia|]. csimpl. rewrite b2n_mod. intros mc Hc.
  flat. eapply HQ; [exact Hc| | | |].
  - csets. reflexivity.
  - csets. reflexivity.
  - csets. reflexivity.
  - intros k K1 K2 K3. csets. reflexivity.
Qed.

Lemma runs_wr j w c a b d ab bc ca (Q : state -> Prop) : j < 3 -> pv w = pv1 -> nx w = N0 -> iv w 1 = i -> iv w 2 = j -> heap L N0 (mm w) c ->
  c 12 = tri_bytes a -> c 13 = tri_bytes b -> c 14 = tri_bytes d -> c 15 = tri_bytes ab -> c 16 = tri_bytes bc -> c 17 = tri_bytes ca ->
  (forall dd' m' c', heap L N0 m' c' ->
     c' (3 + j) = set_bit (set_bit (set_bit (c (3 + j)) (i + 2) (xorb (tget a j) (tget bc j))) (i + 1) (xorb (xorb (tget a j) (tget b j)) (tget ca j)))
       i (xorb (xorb (xorb (tget a j) (tget b j)) (tget d j)) (tget ab j)) ->
     (forall k, k <> 3 + j -> c' k = c k) -> Q (mkState (iv w) dd' pv1 m' N0 (ct w))) ->
  runs U (Seq (Ld 1 0 (byte_at 3 (IV 2))) (Seq (Ld 1 1 (byte_at 7 (IV 2)))
   (Seq (c_setBit (PV 0 (IV 2)) (IAdd (IV 1) (IC 2)) (dxor (DV 0) (DV 1)))
   (Seq (Ld 1 0 (byte_at 3 (IV 2))) (Seq (Ld 1 1 (byte_at 4 (IV 2))) (Seq (Ld 1 2 (byte_at 8 (IV 2)))
   (Seq (c_setBit (PV 0 (IV 2)) (IAdd (IV 1) (IC 1)) (dxor (dxor (DV 0) (DV 1)) (DV 2)))
   (Seq (Ld 1 0 (byte_at 3 (IV 2))) (Seq (Ld 1 1 (byte_at 4 (IV 2))) (Seq (Ld 1 2 (byte_at 5 (IV 2))) (Seq (Ld 1 3 (byte_at 6 (IV 2)))
   (c_setBit (PV 0 (IV 2)) (IV 1) (dxor (dxor (dxor (DV 0) (DV 1)) (DV 2)) (DV 3))))))))))))))  w Q.
Proof.
  intros Hj Wp Wn W1 W2 H A12 A13 A14 A15 A16 A17 HQ. destruct w as [wi wd wp wm wn wc]. cbn [iv dv pv mm nx ct] in *. subst wp wn.
  pose proof (Sst j Hj) as Sj. unfold byte_at.
  assert (P3 : pv1 3 = [reg L 12]) by apply (P_loc 12 ltac:(lia)). assert (P4 : pv1 4 = [reg L 13]) by apply (P_loc 13 ltac:(lia)).
  assert (P5 : pv1 5 = [reg L 14]) by apply (P_loc 14 ltac:(lia)). assert (P6 : pv1 6 = [reg L 15]) by apply (P_loc 15 ltac:(lia)).
  assert (P7 : pv1 7 = [reg L 16]) by apply (P_loc 16 ltac:(lia)). assert (P8 : pv1 8 = [reg L 17]) by apply (P_loc 17 ltac:(lia)).
  assert (E0 : nth_error (pv1 0) j = Some (reg L (3 + j))) by (rewrite P_st; apply (nth3 _ _ _ (fun j => reg L (3 + j)) j Hj); reflexivity).
  assert (SL : forall k, 12 <= k < 18 -> j < sz L k) by (intros k Hk; rewrite Sloc by exact Hk; exact Hj).
  destruct (sbox_val (tget a j) (tget bc j) true true) as (V1 & _). destruct (sbox_val (tget a j) (tget b j) (tget ca j) true) as (_ & V2 & _).
  destruct (sbox_val (tget a j) (tget b j) (tget d j) (tget ab j)) as (_ & _ & V3).
  eapply runs_seq, (h_ld1 n0 m0 U L _ _ _ _ 12 j (reg L 12)); [exact H|lia|reflexivity|csimpl; rewrite P3; csimpl; rewrite W2; apply ptr_add; lia|apply SL; lia|]. csimpl. rewrite A12, tri_nth by exact Hj.
  eapply runs_seq, (h_ld1 n0 m0 U L _ _ _ _ 16 j (reg L 16)); [exact H|lia|reflexivity|csimpl; rewrite P7; csimpl; rewrite W2; apply ptr_add; lia|apply SL; lia|]. csimpl. rewrite A16, tri_nth by exact Hj.
  eapply runs_seq, (h_setBit n0 m0 U L _ _ _ _ _ (3 + j)); [exact H|lia|csimpl; rewrite W2; exact E0|csimpl; rewrite W1; lia|csimpl; exact V1|]. csimpl. rewrite W1. intros ma Ha.
  eapply runs_seq, (h_ld1 n0 m0 U L _ _ _ _ 12 j (reg L 12)); [exact Ha|lia|reflexivity|csimpl; rewrite P3; csimpl; rewrite W2; apply ptr_add; lia|apply SL; lia|]. csimpl. rewrite cset_neq, A12, tri_nth by lia.
  eapply runs_seq, (h_ld1 n0 m0 U L _ _ _ _ 13 j (reg L 13)); [exact Ha|lia|reflexivity|csimpl; rewrite P4; csimpl; rewrite W2; apply ptr_add; lia|apply SL; lia|]. csimpl. rewrite cset_neq, A13, tri_nth by lia.
  eapply runs_seq, (h_ld1 n0 m0 U L _ _ _ _ 17 j (reg L 17)); [exact Ha|lia|reflexivity|csimpl; rewrite P8; csimpl; rewrite W2; apply ptr_add; lia|apply SL; lia|]. csimpl. rewrite cset_neq, A17, tri_nth by lia.
  eapply runs_seq, (h_setBit n0 m0 U L _ _ _ _ _ (3 + j)); [exact Ha|lia|csimpl; rewrite W2; exact E0|csimpl; rewrite W1; lia|csimpl; exact V2|]. csimpl. rewrite W1. intros mb Hb.
  eapply runs_seq, (h_ld1 n0 m0 U L _ _ _ _ 12 j (reg L 12)); [exact Hb|lia|reflexivity|csimpl; rewrite P3; csimpl; rewrite W2; apply ptr_add; lia|apply SL; lia|]. csimpl. rewrite !cset_neq, A12, tri_nth by lia.
  eapply runs_seq, (h_ld1 n0 m0 U L _ _ _ _ 13 j (reg L 13)); [exact Hb|lia|reflexivity|csimpl; rewrite P4; csimpl; rewrite W2; apply ptr_add; lia|apply SL; lia|]. csimpl. rewrite !cset_neq, A13, tri_nth by lia.
  eapply runs_seq, (h_ld1 n0 m0 U L _ _ _ _ 14 j (reg L 14)); [exact Hb|lia|reflexivity|csimpl; rewrite P5; csimpl; rewrite W2; apply ptr_add; lia|apply SL; lia|]. csimpl. rewrite !cset_neq, A14, tri_nth by lia.
  eapply runs_seq, (h_ld1 n0 m0 U L _ _ _ _ 15 j (reg L 15)); [exact Hb|lia|reflexivity|csimpl; rewrite P6; csimpl; rewrite W2; apply ptr_add; lia|apply SL; lia|]. csimpl. rewrite !cset_neq, A15, tri_nth by lia.
  eapply (h_setBit n0 m0 U L _ _ _ _ _ (3 + j)); [exact Hb|lia|csimpl; rewrite W2; exact E0|csimpl; rewrite W1; lia|csimpl; exact V3|]. csimpl. rewrite W1. intros mc Hc.
  flat. eapply HQ; [exact Hc| |].
  - change (S (S (S j))) with (3 + j). rewrite !cset_eq. reflexivity.
  - intros k K1. rewrite !cset_neq by exact K1. reflexivity.
Qed.
End Bits.
End Z.
