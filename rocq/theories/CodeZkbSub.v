(** The S-box layer of the ZKB++ computations on memory with pointers. *)

From Coq Require Import List NArith Arith Bool Lia ZifyBool ZifyNat ZifyN.
From Verif Require Import Base Params Env Spec LowMC Picnic1 MiniC CodeLowMC CodeZkb CodeSpec BaseFacts ParamFacts LowMCFacts
  MiniCFacts CodeRules CodeLowMCProofs CodeHeap CodeZkbProofs CodeZkbBits.
Import ListNotations.

Lemma mpc_AND_ok x z (T0 T1 T2 c0 c1 c2 : bytes) ps :
  ps < 8 * length T0 -> ps < 8 * length T1 -> ps < 8 * length T2 -> ps < 8 * length c0 -> ps < 8 * length c1 -> ps < 8 * length c2 ->
  let o := AND_o T0 T1 T2 x z ps in
  mpc_AND x z (T0, T1, T2) (c0, c1, c2) ps = Ok ((o 0, o 1, o 2), (set_bit c0 ps (o 0), set_bit c1 ps (o 1), set_bit c2 ps (o 2)), S ps).
Proof.
  intros A0 A1 A2 A3 A4 A5. cbv zeta. unfold mpc_AND, triM. cbn [tget].
  rewrite !getBit_ok by (apply lt_div8; assumption). rewrite !bind_Ok.
  rewrite !setBit_ok by (apply lt_div8; assumption). rewrite !bind_Ok. reflexivity.
Qed.

Lemma sbox_write_ok s i a b c ab bc ca : i + 3 <= 8 * length s ->
  sbox_write s i a b c ab bc ca = Ok (set_bit (set_bit (set_bit s (i + 2) (xorb a bc)) (i + 1) (xorb (xorb a b) ca)) i (xorb (xorb (xorb a b) c) ab)).
Proof.
  intros H. unfold sbox_write. rewrite setBit_ok by (apply lt_div8; lia). rewrite bind_Ok.
  rewrite setBit_ok by (apply lt_div8; rewrite length_set_bit; lia). rewrite bind_Ok.
  apply setBit_ok. apply lt_div8. rewrite !length_set_bit. lia.
Qed.

Section Z.
Variables (n0 : nat) (m0 : memory) (U : nat -> nat -> bytes) (HU : locals_ok U).
Notation heap := (heap n0 m0).
Notation ro := (ro n0 m0).

(** ** [mpc_substitution]. Regions of [L]: communicatedBits 0-2, state 3-5, and six others. *)
Variable P : paramset.
Variables (L : layout) (t0 t1 t2 : ptr) (T0 T1 T2 : bytes).
Hypothesis HL : cnt L = 12.
Hypothesis R0 : ro L t0 T0. Hypothesis R1 : ro L t1 T1. Hypothesis R2 : ro L t2 T2.

Lemma runs_mpc_substitution a t k v y c ps (Q : state -> Prop) :
  pv y a = [reg L 3; reg L 4; reg L 5] -> pv y t = [t0; t1; t2] -> pv y k = [reg L 0; reg L 1; reg L 2] -> iv y v = ps ->
  heap L (nx y) (mm y) c ->
  (forall j, j < 3 -> 3 * numSboxes P <= 8 * sz L (3 + j)) -> (forall j, j < 3 -> ps + 3 * numSboxes P <= 8 * sz L j) ->
  ps + 3 * numSboxes P <= 8 * length T0 -> ps + 3 * numSboxes P <= 8 * length T1 -> ps + 3 * numSboxes P <= 8 * length T2 ->
  (forall m' c' ct', mpc_substitution P (c 3, c 4, c 5) (T0, T1, T2) (c 0, c 1, c 2) ps = Ok ((c' 3, c' 4, c' 5), (c' 0, c' 1, c' 2), ps + 3 * numSboxes P) ->
     heap L (nx y) m' c' -> (forall i, 6 <= i < 12 -> c' i = c i) ->
     Q (mkState (upd (iv y) v (ps + 3 * numSboxes P)) (dv y) (pv y) m' (nx y) ct')) ->
  runs U (c_mpc_substitution P a t k v) y Q.
Proof.
  intros Ea Et Ek Ev H Ss Sc B0 B1 B2 HQ. unfold c_mpc_substitution. eapply runs_call; [cbn [pargevals pargeval pevals]; rewrite Ea, Et, Ek; reflexivity|].
  cbn [map ieval]. rewrite Ev. unfold mpc_substitution_body.
  eapply (h_locs n0 m0 U 3 [3; 4; 5; 6; 7; 8] _ HU L _ c); [exact H|].
  cbn [length Nat.add iv dv pv mm nx ct]. set (N6 := S (S (S (S (S (S (nx y))))))). set (L6 := lpush 3 L (nx y) [3; 4; 5; 6; 7; 8]).
  set (pv6 := lpv _ _ _). intros m1 c1 H1 Hc1. set (c6 := S (S (S (S (S (S (ct y))))))). clearbody c6.
  assert (Hn : n0 <= nx y) by apply H.
  assert (HL6 : cnt L6 = 18) by (unfold L6; rewrite lpush_cnt, HL; reflexivity).
  assert (G : forall i, i < 12 -> reg L6 i = reg L i /\ sz L6 i = sz L i) by (intros i Hi; apply lpush_old; lia).
  assert (G' : forall i, i < 6 -> reg L6 (12 + i) = (nx y + i, 0) /\ sz L6 (12 + i) = 3).
  { intros i Hi. pose proof (lpush_new 3 [3; 4; 5; 6; 7; 8] L (nx y) i Hi) as A. rewrite HL in A. exact A. }
  assert (Sloc : forall i, 12 <= i < 18 -> sz L6 i = 3).
  { intros i Hi. replace i with (12 + (i - 12)) by lia. apply G'. lia. }
  assert (R0' : ro L6 t0 T0) by (apply ro_lpush; auto). assert (R1' : ro L6 t1 T1) by (apply ro_lpush; auto). assert (R2' : ro L6 t2 T2) by (apply ro_lpush; auto).
  assert (P_st : pv6 0 = [reg L6 3; reg L6 4; reg L6 5]).
  { rewrite (proj1 (G 3 ltac:(lia))), (proj1 (G 4 ltac:(lia))), (proj1 (G 5 ltac:(lia))). reflexivity. }
  assert (P_t : pv6 1 = [t0; t1; t2]) by reflexivity.
  assert (P_c : pv6 2 = [reg L6 0; reg L6 1; reg L6 2]).
  { rewrite (proj1 (G 0 ltac:(lia))), (proj1 (G 1 ltac:(lia))), (proj1 (G 2 ltac:(lia))). reflexivity. }
  assert (P_loc : forall i, 12 <= i < 18 -> pv6 (i - 9) = [reg L6 i]).
  { intros i Hi. replace i with (12 + (i - 12)) by lia. rewrite (proj1 (G' (i - 12) ltac:(lia))).
    assert (i - 12 = 0 \/ i - 12 = 1 \/ i - 12 = 2 \/ i - 12 = 3 \/ i - 12 = 4 \/ i - 12 = 5) as Hc by lia.
    destruct Hc as [->|[->|[->|[->|[->| ->]]]]]; rewrite (Nat.add_comm (nx y)); reflexivity. }
  assert (Ss' : forall j, j < 3 -> sz L6 (3 + j) = sz L (3 + j)) by (intros j Hj; apply G; lia).
  assert (Sc' : forall j, j < 3 -> sz L6 j = sz L j) by (intros j Hj; apply G; lia).
  clearbody L6 pv6. clear G G'.
  unfold mpc_substitution in HQ. set (body := fun k (s : tri bytes * tri bytes * nat) => _) in HQ.
  apply runs_for with (I := fun k z => pv z = pv6 /\ nx z = N6 /\ iv z 0 = ps + 3 * k /\ exists cc, heap L6 N6 (mm z) cc /\
    for_loop k 0 body (c 3, c 4, c 5, (c 0, c 1, c 2), ps) = Ok ((cc 3, cc 4, cc 5), (cc 0, cc 1, cc 2), ps + 3 * k) /\
    forall i, 6 <= i < 12 -> cc i = c i).
  - csimpl. split; [reflexivity|]. split; [reflexivity|]. split; [lia|]. exists c1. split; [exact H1|].
    split; [|intros i Hi; apply Hc1; lia]. cbn [for_loop]. rewrite !Hc1 by lia. repeat f_equal. lia.
  - csimpl. rewrite (iters3 P). cbn [Nat.add]. intros i z Hi (Z1 & Z2 & Z3 & cc & Hz & Hl & Ho). destruct z as [zi zd zp zm zn zc]. cbn [iv dv pv mm nx ct] in *. subst zp zn.
    assert (Lc : forall q, q < 18 -> length (cc q) = sz L6 q) by (intros q Hq; apply (heap_len n0 m0 L6 _ _ _ Hz); lia).
    assert (Ss3 : forall j, j < 3 -> i * 3 + 3 <= 8 * sz L6 (3 + j)) by (intros j Hj; rewrite Ss' by exact Hj; specialize (Ss j Hj); lia).
    assert (Sc3 : forall j, j < 3 -> ps + 3 * i + 3 <= 8 * sz L6 j) by (intros j Hj; rewrite Sc' by exact Hj; specialize (Sc j Hj); lia).
    set (A := (bit (cc 3) (i * 3 + 2), bit (cc 4) (i * 3 + 2), bit (cc 5) (i * 3 + 2)) : tri bool).
    set (B := (bit (cc 3) (i * 3 + 1), bit (cc 4) (i * 3 + 1), bit (cc 5) (i * 3 + 1)) : tri bool).
    set (D := (bit (cc 3) (i * 3), bit (cc 4) (i * 3), bit (cc 5) (i * 3)) : tri bool).
    apply runs_seq, runs_for3. csimpl.
    apply (runs_rd n0 m0 U L6 N6 (i * 3) pv6 HL6 Sloc Ss3 P_st P_loc 0 _ cc); [lia|reflexivity|reflexivity|reflexivity|reflexivity|exact Hz|].
    intros d1 ma ca Ha A1 A2 A3 A4. csimpl.
    apply (runs_rd n0 m0 U L6 N6 (i * 3) pv6 HL6 Sloc Ss3 P_st P_loc 1 _ ca); [lia|reflexivity|reflexivity|reflexivity|reflexivity|exact Ha|].
    intros d2 mb cb Hb B1' B2' B3 B4. csimpl.
    apply (runs_rd n0 m0 U L6 N6 (i * 3) pv6 HL6 Sloc Ss3 P_st P_loc 2 _ cb); [lia|reflexivity|reflexivity|reflexivity|reflexivity|exact Hb|].
    intros d3 mc c3 Hc C1 C2 C3 C4.
    assert (X12 : c3 12 = tri_bytes A). { rewrite C1, B1', A1, A4, B4, A4 by lia. apply list3. rewrite Lc by lia. apply Sloc. lia. }
    assert (X13 : c3 13 = tri_bytes B). { rewrite C2, B2', A2, A4, B4, A4 by lia. apply list3. rewrite Lc by lia. apply Sloc. lia. }
    assert (X14 : c3 14 = tri_bytes D). { rewrite C3, B3, A3, A4, B4, A4 by lia. apply list3. rewrite Lc by lia. apply Sloc. lia. }
    assert (Xo : forall q, q < 12 -> c3 q = cc q) by (intros q Hq; rewrite C4, B4, A4 by lia; reflexivity).
    flat. set (I3 := upd _ 2 2). assert (I30 : I3 0 = ps + 3 * i) by exact Z3. assert (I31 : I3 1 = i * 3) by reflexivity. clearbody I3.
    clear A1 A2 A3 A4 B1' B2' B3 B4 C1 C2 C3 C4 Ha Hb ma mb ca cb d1 d2 Z3.
    assert (P3 : pv6 3 = [reg L6 12]) by apply (P_loc 12 ltac:(lia)). assert (P4 : pv6 4 = [reg L6 13]) by apply (P_loc 13 ltac:(lia)).
    assert (P5 : pv6 5 = [reg L6 14]) by apply (P_loc 14 ltac:(lia)). assert (P6 : pv6 6 = [reg L6 15]) by apply (P_loc 15 ltac:(lia)).
    assert (P7 : pv6 7 = [reg L6 16]) by apply (P_loc 16 ltac:(lia)). assert (P8 : pv6 8 = [reg L6 17]) by apply (P_loc 17 ltac:(lia)).
    set (p1 := ps + 3 * i) in *. assert (Ep : S (S (S p1)) = ps + 3 * S i) by (unfold p1; lia).
    assert (Bt : forall q, q < 3 -> p1 + q < 8 * length T0 /\ p1 + q < 8 * length T1 /\ p1 + q < 8 * length T2) by (intros q Hq; unfold p1; lia).
    assert (Bc : forall q j, q < 3 -> j < 3 -> p1 + q < 8 * sz L6 j) by (intros q j Hq Hj; specialize (Sc3 j Hj); fold p1 in Sc3; lia).
    clearbody p1.
    apply runs_seq. apply (runs_mpc_AND n0 m0 U HU L6 12 13 15 t0 t1 t2 T0 T1 T2 A B p1) with (c := c3); csimpl; try assumption; try lia; try (rewrite ?P3, ?P4, ?P6; reflexivity).
    { intros q Hq. specialize (Bc 0 q ltac:(lia) Hq). lia. }
    set (AB := AND_o T0 T1 T2 A B p1). intros m4 c4 u4 H4 C4o C4c C4r.
    apply runs_seq. apply (runs_mpc_AND n0 m0 U HU L6 13 14 16 t0 t1 t2 T0 T1 T2 B D (S p1)) with (c := c4); csimpl; try assumption; try lia; try (rewrite ?P4, ?P5, ?P7; reflexivity).
    { intros q Hq. specialize (Bc 1 q ltac:(lia) Hq). lia. }
    { rewrite C4r by lia. exact X13. } { rewrite C4r by lia. exact X14. }
    set (BC := AND_o T0 T1 T2 B D (S p1)). intros m5 c5 u5 H5 C5o C5c C5r.
    apply runs_seq. apply (runs_mpc_AND n0 m0 U HU L6 14 12 17 t0 t1 t2 T0 T1 T2 D A (S (S p1))) with (c := c5); csimpl; try assumption; try lia; try (rewrite ?P5, ?P3, ?P8; reflexivity).
    { intros q Hq. specialize (Bc 2 q ltac:(lia) Hq). lia. }
    { rewrite C5r, C4r by lia. exact X14. } { rewrite C5r, C4r by lia. exact X12. }
    set (CA := AND_o T0 T1 T2 D A (S (S p1))). intros m6 c6' u6 H6 C6o C6c C6r.
    assert (Y12 : c6' 12 = tri_bytes A) by (rewrite C6r, C5r, C4r by lia; exact X12).
    assert (Y13 : c6' 13 = tri_bytes B) by (rewrite C6r, C5r, C4r by lia; exact X13).
    assert (Y14 : c6' 14 = tri_bytes D) by (rewrite C6r, C5r, C4r by lia; exact X14).
    assert (Y15 : c6' 15 = tri_bytes (AB 0, AB 1, AB 2)) by (rewrite C6r, C5r by lia; exact C4o).
    assert (Y16 : c6' 16 = tri_bytes (BC 0, BC 1, BC 2)) by (rewrite C6r by lia; exact C5o).
    assert (Yr : forall q, 3 <= q < 12 -> c6' q = cc q) by (intros q Hq; rewrite C6r, C5r, C4r, Xo by lia; reflexivity).
    assert (Yc : forall q, q < 3 -> c6' q = set_bit (set_bit (set_bit (cc q) p1 (AB q)) (S p1) (BC q)) (S (S p1)) (CA q)).
    { intros q Hq. rewrite C6c, C5c, C4c, Xo by lia. reflexivity. }
    clear C6c C5c C4c C6r C5r C4r C4o C5o H4 H5 Xo X12 X13 X14. flat.
    apply runs_for3. csimpl.
    set (w0 := fun j => set_bit (set_bit (set_bit (cc (3 + j)) (i * 3 + 2) (xorb (tget A j) (tget (BC 0, BC 1, BC 2) j))) (i * 3 + 1) (xorb (xorb (tget A j) (tget B j)) (tget (CA 0, CA 1, CA 2) j)))
       (i * 3) (xorb (xorb (xorb (tget A j) (tget B j)) (tget D j)) (tget (AB 0, AB 1, AB 2) j))).
    apply (runs_wr n0 m0 U L6 N6 (i * 3) pv6 HL6 Sloc Ss3 P_st P_loc 0 _ c6' A B D (AB 0, AB 1, AB 2) (BC 0, BC 1, BC 2) (CA 0, CA 1, CA 2));
      [lia|reflexivity|reflexivity|exact I31|reflexivity|exact H6|exact Y12|exact Y13|exact Y14|exact Y15|exact Y16|exact C6o|].
    intros d7 m7 c7 H7 W7 V7. rewrite Yr in W7 by lia. change (c7 3 = w0 0) in W7. flat.
    apply (runs_wr n0 m0 U L6 N6 (i * 3) pv6 HL6 Sloc Ss3 P_st P_loc 1 _ c7 A B D (AB 0, AB 1, AB 2) (BC 0, BC 1, BC 2) (CA 0, CA 1, CA 2));
      [lia|reflexivity|reflexivity|exact I31|reflexivity|exact H7|rewrite V7 by lia; exact Y12|rewrite V7 by lia; exact Y13|rewrite V7 by lia; exact Y14|rewrite V7 by lia; exact Y15|rewrite V7 by lia; exact Y16|rewrite V7 by lia; exact C6o|].
    intros d8 m8 c8 H8 W8 V8. rewrite V7, Yr in W8 by lia. change (c8 4 = w0 1) in W8. flat.
    apply (runs_wr n0 m0 U L6 N6 (i * 3) pv6 HL6 Sloc Ss3 P_st P_loc 2 _ c8 A B D (AB 0, AB 1, AB 2) (BC 0, BC 1, BC 2) (CA 0, CA 1, CA 2));
      [lia|reflexivity|reflexivity|exact I31|reflexivity|exact H8|rewrite V8, V7 by lia; exact Y12|rewrite V8, V7 by lia; exact Y13|rewrite V8, V7 by lia; exact Y14|rewrite V8, V7 by lia; exact Y15|rewrite V8, V7 by lia; exact Y16|rewrite V8, V7 by lia; exact C6o|].
    intros d9 m9 c9 H9 W9 V9. rewrite V8, V7, Yr in W9 by lia. change (c9 5 = w0 2) in W9. flat.
    split; [reflexivity|]. split; [reflexivity|]. split; [exact Ep|]. exists c9. split; [exact H9|]. split.
    + rewrite for_loop_snoc, Hl, bind_Ok. cbn [Nat.add]. unfold body. rewrite (Nat.mul_comm 3 i). cbv zeta. unfold triM at 1 2 3. cbn [tget].
      assert (F : forall q d, q < 3 -> d < 3 -> (i * 3 + d) / 8 < length (cc (3 + q))).
      { intros q d Hq Hd. apply lt_div8. rewrite Lc by lia. specialize (Ss3 q Hq). lia. }
      assert (l0 : 0 < 3) by lia. assert (l1 : 1 < 3) by lia. assert (l2 : 2 < 3) by lia.
      assert (F'0 : forall q, q < 3 -> i * 3 / 8 < length (cc (3 + q))) by (intros q Hq; specialize (F q 0 Hq l0); rewrite Nat.add_0_r in F; exact F).
      rewrite !getBit_ok by (first [apply (F 0)|apply (F 1)|apply (F 2)|apply (F'0 0)|apply (F'0 1)|apply (F'0 2)]; assumption).
      rewrite !bind_Ok. fold A B D.
      assert (F' : forall q d, q < 3 -> d < 3 -> p1 + d < 8 * length (cc q)) by (intros q d Hq Hd; rewrite Lc by lia; apply Bc; lia).
      destruct (Bt 0 ltac:(lia)) as (K1 & K2 & K3), (Bt 1 ltac:(lia)) as (K4 & K5 & K6), (Bt 2 ltac:(lia)) as (K7 & K8 & K9).
      rewrite Nat.add_0_r in K1, K2, K3. rewrite Nat.add_1_r in K4, K5, K6. replace (p1 + 2) with (S (S p1)) in K7, K8, K9 by lia.
      assert (F0 : forall q, q < 3 -> p1 < 8 * length (cc q)) by (intros q Hq; specialize (F' q 0 Hq); lia).
      assert (F1 : forall q, q < 3 -> S p1 < 8 * length (cc q)) by (intros q Hq; specialize (F' q 1 Hq); lia).
      assert (F2 : forall q, q < 3 -> S (S p1) < 8 * length (cc q)) by (intros q Hq; specialize (F' q 2 Hq); lia).
      assert (F3 : forall q, q < 3 -> i * 3 + 3 <= 8 * length (cc (3 + q))) by (intros q Hq; rewrite Lc by lia; apply Ss3, Hq).
      rewrite mpc_AND_ok by (assumption || (apply F0; assumption)). rewrite bind_Ok.
      rewrite mpc_AND_ok by (assumption || (rewrite length_set_bit; apply F1; assumption)). rewrite bind_Ok.
      rewrite mpc_AND_ok by (assumption || (rewrite !length_set_bit; apply F2; assumption)). rewrite bind_Ok.
      fold AB BC CA. unfold triM. rewrite !sbox_write_ok by (apply (F3 0 l0) || apply (F3 1 l1) || apply (F3 2 l2)). rewrite !bind_Ok. rewrite Ep.
      rewrite (V9 3), (V8 3), W7, (V9 4), W8, W9, !V9, !V8, !V7, !Yc by lia. reflexivity.
    + intros q Hq. rewrite V9, V8, V7, Yr by lia. apply Ho, Hq.
  - csimpl. rewrite (iters3 P). intros z (Z1 & Z2 & Z3 & cc & Hz & Hl & Ho). exists cc. split; [exact Hz|]. split; [exact Z2|].
    intros m' p' Hm Hp. rewrite Z3. apply (HQ m' cc); [exact Hl|exact Hm|exact Ho].
Qed.
End Z.
