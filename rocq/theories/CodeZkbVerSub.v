(** The S-box layer of the ZKB++ verifier on memory with pointers: all S-boxes. *)

From Coq Require Import List NArith Arith Bool Lia ZifyBool ZifyNat ZifyN.
From Verif Require Import Base Params Env Spec LowMC Picnic1 MiniC CodeLowMC CodeZkb CodeSpec BaseFacts ParamFacts LowMCFacts
  MiniCFacts CodeRules CodeLowMCProofs CodeHeap CodeZkbProofs CodeZkbBits CodeZkbSub CodeZkbVer.
Import ListNotations.

Lemma mpc_AND_verify_ok x z (T0 T1 c1 C2 : bytes) ps :
  ps < 8 * length T0 -> ps < 8 * length T1 -> ps < 8 * length c1 -> ps < 8 * length C2 ->
  let o := ANDv_o T0 T1 x z ps in
  mpc_AND_verify x z (T0, T1) c1 C2 ps = Ok ((o, bit C2 ps), set_bit c1 ps o, S ps).
Proof.
  intros A0 A1 A2 A3. cbv zeta. unfold mpc_AND_verify. cbn [dget].
  rewrite !getBit_ok by (apply lt_div8; assumption). rewrite !bind_Ok.
  rewrite !setBit_ok by (apply lt_div8; assumption). rewrite !bind_Ok. reflexivity.
Qed.

Section Z.
Variables (n0 : nat) (m0 : memory) (U : nat -> nat -> bytes) (HU : locals_ok U).
Notation heap := (heap n0 m0).
Notation ro := (ro n0 m0).

(** ** [mpc_substitution_verify]. Regions of [L]: communicatedBits 0, state 1-2, and four others. *)
Variable P : paramset.
Variables (L : layout) (t0 t1 q2 : ptr) (T0 T1 C2 : bytes).
Hypothesis HL : cnt L = 7.
Hypothesis R0 : ro L t0 T0. Hypothesis R1 : ro L t1 T1. Hypothesis R2 : ro L q2 C2.

Lemma runs_mpc_substitution_verify a t k1 k2 v y c ps (Q : state -> Prop) :
  pv y a = [reg L 1; reg L 2] -> pv y t = [t0; t1] -> peval (iv y) (pv y) k1 = Some (reg L 0) -> peval (iv y) (pv y) k2 = Some q2 -> iv y v = ps ->
  heap L (nx y) (mm y) c ->
  (forall j, j < 2 -> 3 * numSboxes P <= 8 * sz L (1 + j)) -> ps + 3 * numSboxes P <= 8 * sz L 0 ->
  ps + 3 * numSboxes P <= 8 * length T0 -> ps + 3 * numSboxes P <= 8 * length T1 -> ps + 3 * numSboxes P <= 8 * length C2 ->
  (forall m' c' ct', mpc_substitution_verify P (c 1, c 2) (T0, T1) (c 0) C2 ps = Ok ((c' 1, c' 2), c' 0, ps + 3 * numSboxes P) ->
     heap L (nx y) m' c' -> (forall i, 3 <= i < 7 -> c' i = c i) ->
     Q (mkState (upd (iv y) v (ps + 3 * numSboxes P)) (dv y) (pv y) m' (nx y) ct')) ->
  runs U (c_mpc_substitution_verify P a t k1 k2 v) y Q.
Proof.
  intros Ea Et E1 E2 Ev H Ss Sc B0 B1 B2 HQ. unfold c_mpc_substitution_verify. eapply runs_call; [cbn [pargevals pargeval pevals]; rewrite Ea, Et, E1, E2; reflexivity|].
  cbn [map ieval]. rewrite Ev. unfold mpc_substitution_verify_body. set (N0 := nx y) in *.
  assert (Hn : n0 <= N0) by apply H.
  unfold mpc_substitution_verify in HQ. set (body := fun k (s : duo bytes * bytes * nat) => _) in HQ.
  apply runs_for with (I := fun k z => pv z 0 = [reg L 1; reg L 2] /\ pv z 1 = [t0; t1] /\ pv z 2 = [reg L 0] /\ pv z 3 = [q2] /\ nx z = N0 /\ iv z 0 = ps + 3 * k /\
    exists cc, heap L N0 (mm z) cc /\
    for_loop k 0 body (c 1, c 2, c 0, ps) = Ok ((cc 1, cc 2), cc 0, ps + 3 * k) /\
    forall i, 3 <= i < 7 -> cc i = c i).
  - csimpl. do 5 (split; [reflexivity|]). split; [lia|]. exists c. split; [exact H|].
    split; [|auto]. cbn [for_loop]. repeat f_equal. lia.
  - csimpl. rewrite (iters3 P). cbn [Nat.add]. intros i z Hi (Z1 & Z2 & Z3 & Z4 & Z5 & Z6 & cc & Hz & Hl & Ho). destruct z as [zi zd zp zm zn zc]. cbn [iv dv pv mm nx ct] in *. subst zn.
    match goal with |- runs U (Loc 4 _ (Loc 5 _ (Loc 6 _ (Seq ?s (Loc 7 _ (Loc 8 _ (Loc 9 _ ?s')))))))  _ _ =>
      change (Loc 4 _ (Loc 5 _ (Loc 6 _ (Seq s (Loc 7 _ (Loc 8 _ (Loc 9 _ s'))))))) with (locs 2 [4; 5; 6] (Seq s (locs 2 [7; 8; 9] s'))) end.
    unfold set_iv. cbn [iv dv pv mm nx ct]. eapply (h_locs n0 m0 U 2 [4; 5; 6] _ HU L _ cc); [exact Hz|].
    cbn [length Nat.add iv dv pv mm nx ct]. set (N3 := S (S (S N0))). set (L3 := lpush 2 L N0 [4; 5; 6]).
    set (pv3 := lpv _ _ _). intros m1 c1 H1 Hc1. set (u3 := S (S (S zc))). clearbody u3.
    assert (HL3 : cnt L3 = 10) by (unfold L3; rewrite lpush_cnt, HL; reflexivity).
    assert (G : forall i, i < 7 -> reg L3 i = reg L i /\ sz L3 i = sz L i) by (intros x Hx; apply lpush_old; lia).
    assert (G' : forall i, i < 3 -> reg L3 (7 + i) = (N0 + i, 0) /\ sz L3 (7 + i) = 2).
    { intros x Hx. pose proof (lpush_new 2 [4; 5; 6] L N0 x Hx) as A. rewrite HL in A. exact A. }
    assert (Sl3 : forall i, 7 <= i < 10 -> sz L3 i = 2).
    { intros x Hx. replace x with (7 + (x - 7)) by lia. apply G'. lia. }
    assert (R0' : ro L3 t0 T0) by (apply ro_lpush; auto). assert (R1' : ro L3 t1 T1) by (apply ro_lpush; auto). assert (R2' : ro L3 q2 C2) by (apply ro_lpush; auto).
    assert (P_st : pv3 0 = [reg L3 1; reg L3 2]).
    { rewrite (proj1 (G 1 ltac:(lia))), (proj1 (G 2 ltac:(lia))). exact Z1. }
    assert (P_t : pv3 1 = [t0; t1]) by exact Z2.
    assert (P_c : pv3 2 = [reg L3 0]) by (rewrite (proj1 (G 0 ltac:(lia))); exact Z3).
    assert (P_d : pv3 3 = [q2]) by exact Z4.
    assert (P_loc : forall i, 7 <= i < 10 -> pv3 (i - 3) = [reg L3 i]).
    { intros x Hx. replace x with (7 + (x - 7)) by lia. rewrite (proj1 (G' (x - 7) ltac:(lia))).
      assert (x - 7 = 0 \/ x - 7 = 1 \/ x - 7 = 2) as Hc by lia. destruct Hc as [->|[->| ->]]; rewrite (Nat.add_comm N0); reflexivity. }
    assert (Ss' : forall j, j < 2 -> sz L3 (1 + j) = sz L (1 + j)) by (intros j Hj; apply G; lia).
    assert (Sc' : sz L3 0 = sz L 0) by (apply G; lia).
    clearbody pv3. clear G G' Z1 Z2 Z3 Z4.
    assert (Lc : forall q, q < 10 -> length (c1 q) = sz L3 q) by (intros q Hq; apply (heap_len n0 m0 L3 _ _ _ H1); lia).
    assert (Ss3 : forall j, j < 2 -> i * 3 + 3 <= 8 * sz L3 (1 + j)) by (intros j Hj; rewrite Ss' by exact Hj; specialize (Ss j Hj); lia).
    assert (Sc3 : ps + 3 * i + 3 <= 8 * sz L3 0) by (rewrite Sc'; lia).
    set (A := (bit (cc 1) (i * 3 + 2), bit (cc 2) (i * 3 + 2)) : duo bool).
    set (B := (bit (cc 1) (i * 3 + 1), bit (cc 2) (i * 3 + 1)) : duo bool).
    set (D := (bit (cc 1) (i * 3), bit (cc 2) (i * 3)) : duo bool).
    apply runs_seq, runs_for2. csimpl.
    apply (runs_rd2 n0 m0 U L3 N3 (i * 3) pv3 HL3 Sl3 Ss3 P_st P_loc 0 _ c1); [lia|reflexivity|reflexivity|reflexivity|reflexivity|exact H1|].
    intros d1 ma ca Ha A1 A2 A3 A4. csimpl.
    apply (runs_rd2 n0 m0 U L3 N3 (i * 3) pv3 HL3 Sl3 Ss3 P_st P_loc 1 _ ca); [lia|reflexivity|reflexivity|reflexivity|reflexivity|exact Ha|].
    intros d2 mc c3 Hc C1 D2 C3 C4.
    assert (X7 : c3 7 = duo_bytes A). { rewrite C1, A1, A4 by lia. cbn [Nat.add]. rewrite (Hc1 1), (Hc1 2) by lia. apply list2. rewrite Lc by lia. apply Sl3. lia. }
    assert (X8 : c3 8 = duo_bytes B). { rewrite D2, A2, A4 by lia. cbn [Nat.add]. rewrite (Hc1 1), (Hc1 2) by lia. apply list2. rewrite Lc by lia. apply Sl3. lia. }
    assert (X9 : c3 9 = duo_bytes D). { rewrite C3, A3, A4 by lia. cbn [Nat.add]. rewrite (Hc1 1), (Hc1 2) by lia. apply list2. rewrite Lc by lia. apply Sl3. lia. }
    assert (Xo : forall q, q < 7 -> c3 q = cc q) by (intros q Hq; rewrite C4, A4, Hc1 by lia; reflexivity).
    flat. set (I3 := upd _ 2 1). assert (I30 : I3 0 = ps + 3 * i) by exact Z6. assert (I31 : I3 1 = i * 3) by reflexivity. clearbody I3.
    clear A1 A2 A3 A4 C1 D2 C3 C4 Ha ma ca d1 Z6.
    (* ab, bc, ca *)
    eapply (h_locs n0 m0 U 2 [7; 8; 9] _ HU L3 _ c3); [exact Hc|].
    cbn [length Nat.add iv dv pv mm nx ct]. set (N6 := S (S (S N3))). set (L6 := lpush 2 L3 N3 [7; 8; 9]).
    set (pv6 := lpv _ _ _). intros m2 c2 H2 Hc2. set (u6 := S (S (S u3))). clearbody u6.
    assert (Hn3 : n0 <= N3) by (unfold N3; lia).
    assert (HL6 : cnt L6 = 13) by (unfold L6; rewrite lpush_cnt, HL3; reflexivity).
    assert (G : forall i, i < 10 -> reg L6 i = reg L3 i /\ sz L6 i = sz L3 i) by (intros x Hx; apply lpush_old; lia).
    assert (G' : forall i, i < 3 -> reg L6 (10 + i) = (N3 + i, 0) /\ sz L6 (10 + i) = 2).
    { intros x Hx. pose proof (lpush_new 2 [7; 8; 9] L3 N3 x Hx) as K. rewrite HL3 in K. exact K. }
    assert (Sloc : forall i, 7 <= i < 13 -> sz L6 i = 2).
    { intros x Hx. destruct (Nat.lt_ge_cases x 10) as [Hx1|Hx1]; [rewrite (proj2 (G x Hx1)); apply Sl3; lia|]. replace x with (10 + (x - 10)) by lia. apply G'. lia. }
    assert (R0'' : ro L6 t0 T0) by (apply ro_lpush; auto). assert (R1'' : ro L6 t1 T1) by (apply ro_lpush; auto). assert (R2'' : ro L6 q2 C2) by (apply ro_lpush; auto).
    assert (Q_st : pv6 0 = [reg L6 1; reg L6 2]).
    { rewrite (proj1 (G 1 ltac:(lia))), (proj1 (G 2 ltac:(lia))). exact P_st. }
    assert (Q_t : pv6 1 = [t0; t1]) by exact P_t.
    assert (Q_c : pv6 2 = [reg L6 0]) by (rewrite (proj1 (G 0 ltac:(lia))); exact P_c).
    assert (Q_d : pv6 3 = [q2]) by exact P_d.
    assert (Q_loc : forall i, 7 <= i < 13 -> pv6 (i - 3) = [reg L6 i]).
    { intros x Hx. destruct (Nat.lt_ge_cases x 10) as [Hx1|Hx1].
      - rewrite (proj1 (G x Hx1)), <- P_loc by lia. assert (x = 7 \/ x = 8 \/ x = 9) as K by lia. destruct K as [->|[->| ->]]; reflexivity.
      - replace x with (10 + (x - 10)) by lia. rewrite (proj1 (G' (x - 10) ltac:(lia))).
        assert (x - 10 = 0 \/ x - 10 = 1 \/ x - 10 = 2) as K by lia. destruct K as [->|[->| ->]]; rewrite (Nat.add_comm N3); reflexivity. }
    assert (Ss6 : forall j, j < 2 -> i * 3 + 3 <= 8 * sz L6 (1 + j)) by (intros j Hj; rewrite (proj2 (G (1 + j) ltac:(lia))); apply Ss3, Hj).
    assert (Sc6 : ps + 3 * i + 3 <= 8 * sz L6 0) by (rewrite (proj2 (G 0 ltac:(lia))); exact Sc3).
    assert (Lc6 : forall q, q < 13 -> length (c2 q) = sz L6 q) by (intros q Hq; apply (heap_len n0 m0 L6 _ _ _ H2); lia).
    assert (Pr : forall q, q <= 3 -> pv6 q = pv3 q) by (intros q Hq; assert (q = 0 \/ q = 1 \/ q = 2 \/ q = 3) as K by lia; destruct K as [->|[->|[->| ->]]]; reflexivity).
    clearbody pv6. clear G'.
    assert (X7' : c2 7 = duo_bytes A) by (rewrite Hc2 by lia; exact X7). assert (X8' : c2 8 = duo_bytes B) by (rewrite Hc2 by lia; exact X8).
    assert (X9' : c2 9 = duo_bytes D) by (rewrite Hc2 by lia; exact X9). assert (Xo' : forall q, q < 7 -> c2 q = cc q) by (intros q Hq; rewrite Hc2, Xo by lia; reflexivity).
    assert (P4 : pv6 4 = [reg L6 7]) by apply (Q_loc 7 ltac:(lia)). assert (P5 : pv6 5 = [reg L6 8]) by apply (Q_loc 8 ltac:(lia)).
    assert (P6 : pv6 6 = [reg L6 9]) by apply (Q_loc 9 ltac:(lia)). assert (P7 : pv6 7 = [reg L6 10]) by apply (Q_loc 10 ltac:(lia)).
    assert (P8 : pv6 8 = [reg L6 11]) by apply (Q_loc 11 ltac:(lia)). assert (P9 : pv6 9 = [reg L6 12]) by apply (Q_loc 12 ltac:(lia)).
    set (p1 := ps + 3 * i) in *. assert (Ep : S (S (S p1)) = ps + 3 * S i) by (unfold p1; lia).
    assert (Bt : forall q, q < 3 -> p1 + q < 8 * length T0 /\ p1 + q < 8 * length T1 /\ p1 + q < 8 * length C2 /\ p1 + q < 8 * sz L6 0) by (intros q Hq; unfold p1 in *; lia).
    destruct (Bt 0 ltac:(lia)) as (K1 & K2 & K3 & K4), (Bt 1 ltac:(lia)) as (K5 & K6 & K7 & K8), (Bt 2 ltac:(lia)) as (K9 & Ka & Kb & Kc). clear Bt.
    rewrite Nat.add_0_r in K1, K2, K3, K4. rewrite Nat.add_1_r in K5, K6, K7, K8. replace (p1 + 2) with (S (S p1)) in K9, Ka, Kb, Kc by lia.
    clearbody p1.
    apply runs_seq. apply (runs_mpc_AND_verify n0 m0 U HU L6 7 8 10 t0 t1 q2 T0 T1 C2 A B p1) with (c := c2); csimpl; try assumption; try lia; try (rewrite ?P4, ?P5, ?P7, ?Q_c, ?Q_d; reflexivity).
    set (AB := (ANDv_o T0 T1 A B p1, bit C2 p1)). intros m4 c4 u4 H4 C4o C4c C4r.
    apply runs_seq. apply (runs_mpc_AND_verify n0 m0 U HU L6 8 9 11 t0 t1 q2 T0 T1 C2 B D (S p1)) with (c := c4); csimpl; try assumption; try lia; try (rewrite ?P5, ?P6, ?P8, ?Q_c, ?Q_d; reflexivity).
    { rewrite C4r by (clear; lia). exact X8'. } { rewrite C4r by (clear; lia). exact X9'. }
    set (BC := (ANDv_o T0 T1 B D (S p1), bit C2 (S p1))). intros m5 c5 u5 H5 C5o C5c C5r.
    apply runs_seq. apply (runs_mpc_AND_verify n0 m0 U HU L6 9 7 12 t0 t1 q2 T0 T1 C2 D A (S (S p1))) with (c := c5); csimpl; try assumption; try lia; try (rewrite ?P6, ?P4, ?P9, ?Q_c, ?Q_d; reflexivity).
    { rewrite C5r, C4r by (clear; lia). exact X9'. } { rewrite C5r, C4r by (clear; lia). exact X7'. }
    set (CA := (ANDv_o T0 T1 D A (S (S p1)), bit C2 (S (S p1)))). intros m6 c6' u7 H6 C6o C6c C6r.
    assert (Y7 : c6' 7 = duo_bytes A) by (rewrite C6r, C5r, C4r by (clear; lia); exact X7').
    assert (Y8 : c6' 8 = duo_bytes B) by (rewrite C6r, C5r, C4r by (clear; lia); exact X8').
    assert (Y9 : c6' 9 = duo_bytes D) by (rewrite C6r, C5r, C4r by (clear; lia); exact X9').
    assert (Y10 : c6' 10 = duo_bytes AB) by (rewrite C6r, C5r by (clear; lia); exact C4o).
    assert (Y11 : c6' 11 = duo_bytes BC) by (rewrite C6r by (clear; lia); exact C5o).
    assert (Yr : forall q, 1 <= q < 7 -> c6' q = cc q) by (intros q Hq; rewrite C6r, C5r, C4r, Xo' by (clear - Hq; lia); reflexivity).
    assert (Yc : c6' 0 = set_bit (set_bit (set_bit (cc 0) p1 (fst AB)) (S p1) (fst BC)) (S (S p1)) (fst CA)).
    { rewrite C6c, C5c, C4c, Xo' by lia. reflexivity. }
    clear C6c C5c C4c C6r C5r C4r C4o C5o H4 H5 Xo X7 X8 X9. flat.
    apply runs_for2. csimpl.
    set (w0 := fun j => set_bit (set_bit (set_bit (cc (1 + j)) (i * 3 + 2) (xorb (dget A j) (dget BC j))) (i * 3 + 1) (xorb (xorb (dget A j) (dget B j)) (dget CA j)))
       (i * 3) (xorb (xorb (xorb (dget A j) (dget B j)) (dget D j)) (dget AB j))).
    apply (runs_wr2 n0 m0 U L6 N6 (i * 3) pv6 HL6 Sloc Ss6 Q_st Q_loc 0 _ c6' A B D AB BC CA);
      [lia|reflexivity|reflexivity|exact I31|reflexivity|exact H6|exact Y7|exact Y8|exact Y9|exact Y10|exact Y11|exact C6o|].
    intros d7 m7 c7 H7 W7 V7. rewrite Yr in W7 by lia. change (c7 1 = w0 0) in W7. flat.
    apply (runs_wr2 n0 m0 U L6 N6 (i * 3) pv6 HL6 Sloc Ss6 Q_st Q_loc 1 _ c7 A B D AB BC CA);
      [lia|reflexivity|reflexivity|exact I31|reflexivity|exact H7|rewrite V7 by lia; exact Y7|rewrite V7 by lia; exact Y8|rewrite V7 by lia; exact Y9|rewrite V7 by lia; exact Y10|rewrite V7 by lia; exact Y11|rewrite V7 by lia; exact C6o|].
    intros d8 m8 c8 H8 W8 V8. rewrite V7, Yr in W8 by lia. change (c8 2 = w0 1) in W8. flat.
    exists c8. split; [exact H8|]. split; [reflexivity|]. intros m' p' Hm' Hp'. cbn [iv dv pv mm nx ct].
    exists c8. split; [exact Hm'|]. split; [reflexivity|]. intros m'' p'' Hm'' Hp''.
    assert (Pe : forall q, q <= 3 -> p'' q = pv3 q).
    { intros q Hq. rewrite Hp'' by (cbn [In]; lia). rewrite Hp' by (cbn [In]; lia). apply Pr, Hq. }
    assert (GL : forall q, q < 7 -> reg L3 q = reg L q) by (intros x Hx; apply lpush_old; lia).
    rewrite !Pe by (clear; lia). rewrite (GL 1), (GL 2) in P_st by lia. rewrite (GL 0) in P_c by lia.
    split; [exact P_st|]. split; [exact P_t|]. split; [exact P_c|]. split; [exact P_d|]. split; [reflexivity|]. split; [exact Ep|].
    exists c8. split; [exact Hm''|]. split.
    + rewrite for_loop_snoc, Hl, bind_Ok. cbn [Nat.add]. unfold body. rewrite (Nat.mul_comm 3 i). cbv zeta. unfold duoM at 1 2 3. cbn [dget].
      assert (Lcc : forall q, q < 7 -> length (cc q) = sz L6 q) by (intros q Hq; rewrite <- Xo' by exact Hq; apply Lc6; lia).
      assert (F : forall q d, q < 2 -> d < 3 -> (i * 3 + d) / 8 < length (cc (1 + q))).
      { intros q d Hq Hd. apply lt_div8. rewrite Lcc by lia. specialize (Ss6 q Hq). lia. }
      assert (l0 : 0 < 3) by lia. assert (l1 : 1 < 3) by lia. assert (l2 : 2 < 3) by lia. assert (j0 : 0 < 2) by lia. assert (j1 : 1 < 2) by lia.
      assert (F'0 : forall q, q < 2 -> i * 3 / 8 < length (cc (1 + q))) by (intros q Hq; specialize (F q 0 Hq l0); rewrite Nat.add_0_r in F; exact F).
      rewrite !getBit_ok by (first [apply (F 0)|apply (F 1)|apply (F'0 0)|apply (F'0 1)]; assumption).
      rewrite !bind_Ok. fold A B D.
      assert (Lz : length (cc 0) = sz L6 0) by (apply Lcc; lia).
      assert (F3 : forall q, q < 2 -> i * 3 + 3 <= 8 * length (cc (1 + q))) by (intros q Hq; rewrite Lcc by lia; apply Ss6, Hq).
      rewrite mpc_AND_verify_ok by (assumption || (rewrite Lz; assumption)). rewrite bind_Ok.
      rewrite mpc_AND_verify_ok by (assumption || (rewrite length_set_bit, Lz; assumption)). rewrite bind_Ok.
      rewrite mpc_AND_verify_ok by (assumption || (rewrite !length_set_bit, Lz; assumption)). rewrite bind_Ok.
      fold AB BC CA. unfold duoM. rewrite !sbox_write_ok by (apply (F3 0 j0) || apply (F3 1 j1)). rewrite !bind_Ok. rewrite Ep.
      rewrite (V8 1), W7, W8, (V8 0), (V7 0), Yc by lia. reflexivity.
    + intros q Hq. rewrite V8, V7, Yr by (clear - Hq; lia). apply Ho, Hq.
  - csimpl. rewrite (iters3 P). intros z (Z1 & Z2 & Z3 & Z4 & Z5 & Z6 & cc & Hz & Hl & Ho). rewrite Z6, Z5. apply (HQ (mm z) cc); [exact Hl|exact Hz|exact Ho].
Qed.
End Z.
