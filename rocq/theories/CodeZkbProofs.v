(** The multiparty computations of ZKB++ on memory with pointers. *)

From Coq Require Import List NArith Arith Bool Lia ZifyBool ZifyNat ZifyN.
From Verif Require Import Base Params Env Spec LowMC Picnic1 MiniC CodeLowMC CodeZkb CodeSpec BaseFacts ParamFacts LowMCFacts
  MiniCFacts CodeRules CodeLowMCProofs CodeHeap.
Import ListNotations.

Lemma ptr_add (q : ptr) j j' : j = j' -> (let (b, o) := q in Some (b, o + j)) = Some (fst q, snd q + j').
Proof. intros ->. destruct q. reflexivity. Qed.

Definition tri_bytes (x : tri bool) : bytes := [b2n (tget x 0); b2n (tget x 1); b2n (tget x 2)].

Lemma and_val a b c d e f :
  N.modulo (N.lxor (N.lxor (N.lxor (N.lxor (N.land (b2n a) (b2n b)) (N.land (b2n c) (b2n d))) (N.land (b2n a) (b2n d))) (b2n e)) (b2n f)) 256
  = b2n (xorb (xorb (xorb (xorb (a && b) (c && d)) (a && d)) e) f).
Proof. destruct a, b, c, d, e, f; reflexivity. Qed.
Lemma b2n_mod a : N.modulo (b2n a) 256 = b2n a.
Proof. destruct a; reflexivity. Qed.

Lemma runs_for3 U x s st (Q : state -> Prop) :
  runs U s (set_iv st (upd (iv st) x 0)) (fun y => runs U s (set_iv y (upd (iv y) x 1)) (fun y => runs U s (set_iv y (upd (iv y) x 2)) Q)) ->
  runs U (For x (IC 0) (IC 3) 1 s) st Q.
Proof.
  intros H. unfold runs in *. cbn [run ieval]. change ((3 - 0 + (1 - 1)) / 1) with 3. cbn [loop].
  destruct (run U s _) as [[y1 t1]|]; [|exact H]. cbn [andthen emit Nat.add].
  destruct (run U s (set_iv y1 _)) as [[y2 t2]|]; [|exact H]. cbn [andthen emit].
  destruct (run U s (set_iv y2 _)) as [[y3 t3]|]; [|exact H]. cbn [andthen emit]. exact H.
Qed.
Lemma runs_for2 U x s st (Q : state -> Prop) :
  runs U s (set_iv st (upd (iv st) x 0)) (fun y => runs U s (set_iv y (upd (iv y) x 1)) Q) ->
  runs U (For x (IC 0) (IC 2) 1 s) st Q.
Proof.
  intros H. unfold runs in *. cbn [run ieval]. change ((2 - 0 + (1 - 1)) / 1) with 2. cbn [loop].
  destruct (run U s _) as [[y1 t1]|]; [|exact H]. cbn [andthen emit Nat.add].
  destruct (run U s (set_iv y1 _)) as [[y2 t2]|]; [|exact H]. cbn [andthen emit]. exact H.
Qed.

(** Three bytes written one after the other. *)
Lemma list3 (l : bytes) a b c : length l = 3 -> list_set (list_set (list_set l 0 a) 1 b) 2 c = [a; b; c].
Proof. intros H. destruct l as [|x [|y [|z [|]]]]; try discriminate. reflexivity. Qed.
Lemma list3_0 (l : bytes) a : length l = 3 -> nth 0 (list_set l 0 a) 0%N = a.
Proof. intros H. destruct l as [|x [|y [|z [|]]]]; try discriminate. reflexivity. Qed.
Lemma list3_1 (l : bytes) a b : length l = 3 -> nth 1 (list_set (list_set l 0 a) 1 b) 0%N = b.
Proof. intros H. destruct l as [|x [|y [|z [|]]]]; try discriminate. reflexivity. Qed.

Ltac csets := repeat (rewrite cset_eq || rewrite cset_neq by lia).

(** Local arrays of three bytes each. *)
Fixpoint locs (k : nat) (vs : list nat) (s : stmt) : stmt :=
  match vs with [] => s | a :: r => Loc a (IC k) (locs k r s) end.
Fixpoint lpush (k : nat) (L : layout) (n : nat) (vs : list nat) : layout :=
  match vs with [] => L | _ :: r => lpush k (push L (n, 0) k) (S n) r end.
Fixpoint lpv (p : nat -> list ptr) (n : nat) (vs : list nat) : nat -> list ptr :=
  match vs with [] => p | a :: r => lpv (upd p a [(n, 0)]) (S n) r end.

Lemma lpush_cnt k vs : forall L n, cnt (lpush k L n vs) = cnt L + length vs.
Proof. induction vs as [|a r IH]; intros L n; cbn [lpush length]; [lia|]. rewrite IH. cbn [push cnt]. lia. Qed.
Lemma lpush_old k vs : forall L n i, i < cnt L -> reg (lpush k L n vs) i = reg L i /\ sz (lpush k L n vs) i = sz L i.
Proof.
  induction vs as [|a r IH]; intros L n i Hi; cbn [lpush]; [auto|]. destruct (IH (push L (n, 0) k) (S n) i) as [A B]; [cbn [push cnt]; lia|].
  rewrite A, B. cbn [push reg sz]. rewrite !upd_neq by lia. auto.
Qed.
Lemma lpush_new k vs : forall L n i, i < length vs -> reg (lpush k L n vs) (cnt L + i) = (n + i, 0) /\ sz (lpush k L n vs) (cnt L + i) = k.
Proof.
  induction vs as [|a r IH]; intros L n i Hi; cbn [lpush length] in *; [lia|]. destruct i as [|i].
  - rewrite !Nat.add_0_r. destruct (lpush_old k r (push L (n, 0) k) (S n) (cnt L)) as [A B]; [cbn [push cnt]; lia|]. rewrite A, B.
    cbn [push reg sz]. rewrite !upd_eq. auto.
  - destruct (IH (push L (n, 0) k) (S n) i) as [A B]; [lia|]. cbn [push cnt] in A, B. replace (cnt L + S i) with (S (cnt L) + i) by lia.
    rewrite A, B. split; [|reflexivity]. f_equal. lia.
Qed.
Lemma ro_lpush n0 m0 k vs q l : forall L n, n0 <= n -> ro n0 m0 L q l -> ro n0 m0 (lpush k L n vs) q l.
Proof. induction vs as [|a r IH]; intros L n Hn H; cbn [lpush]; [exact H|]. apply IH; [lia|]. apply ro_push; auto. Qed.

Lemma h_locs n0 m0 U k vs s : locals_ok U -> forall L st c (Q : state -> Prop), heap n0 m0 L (nx st) (mm st) c ->
  (forall m c', heap n0 m0 (lpush k L (nx st) vs) (length vs + nx st) m c' -> (forall i, i < cnt L -> c' i = c i) ->
    runs U s (mkState (iv st) (dv st) (lpv (pv st) (nx st) vs) m (length vs + nx st) (length vs + ct st)) (fun y =>
      exists c', heap n0 m0 (lpush k L (nx st) vs) (length vs + nx st) (mm y) c' /\ nx y = length vs + nx st /\
        forall m' p', heap n0 m0 L (nx st) m' c' -> (forall a, ~ In a vs -> p' a = pv y a) -> Q (mkState (iv y) (dv y) p' m' (nx st) (ct y)))) ->
  runs U (locs k vs s) st Q.
Proof.
  intros HU. induction vs as [|a r IH]; intros L st c Q H Hs; cbn [locs].
  - cbn [lpush lpv length Nat.add] in Hs. eapply runs_mono.
    + specialize (Hs (mm st) c H (fun _ _ => eq_refl)). destruct st as [a1 a2 a3 a4 a5 a6]. exact Hs.
    + intros y (c' & Hy & Ny & HQ). specialize (HQ (mm y) (pv y) Hy ltac:(auto)). rewrite <- Ny in HQ. destruct y. exact HQ.
  - eapply h_loc; [exact HU|exact H|]. cbn [ieval]. intros b Lb Bb. eapply (IH (push L (nx st, 0) k) _ (cset c (cnt L) b)); cbn [nx mm iv dv pv ct].
    + pose proof (heap_push n0 m0 L (nx st) (mm st) c b H Bb) as H2. rewrite Lb in H2. exact H2.
    + rewrite <- !plus_n_Sm. intros m c' Hm Hc'. cbn [length lpush lpv Nat.add] in Hs. eapply runs_mono.
      * apply (Hs m c' Hm). intros i Hi. rewrite Hc' by (cbn [push cnt]; lia). rewrite cset_neq by lia. reflexivity.
      * intros y (c2 & Hy & Ny & HQ). exists c2. split; [exact Hy|]. split; [exact Ny|]. intros m' p' Hm' Hp'. exists c2. split; [exact Hm'|].
        intros m'' Hm''. apply HQ; [exact Hm''|]. cbn [mm iv dv pv ct]. intros d Hd. cbn [In] in Hd. rewrite upd_neq by (intros ->; tauto). apply Hp'. tauto.
Qed.

Section Z.
Variables (n0 : nat) (m0 : memory) (U : nat -> nat -> bytes) (HU : locals_ok U).
Notation heap := (heap n0 m0).
Notation ro := (ro n0 m0).

Section AND.
Variables (L : layout) (ka kb ko : nat) (t0 t1 t2 : ptr) (T0 T1 T2 : bytes) (x z : tri bool) (ps : nat).
Hypothesis HL : cnt L = 18.
Hypothesis Hka : 12 <= ka < 18.
Hypothesis Hkb : 12 <= kb < 18.
Hypothesis Hko : 12 <= ko < 18.
Hypothesis Hao : ka <> ko.
Hypothesis Hbo : kb <> ko.
Hypothesis Sloc : forall k, 12 <= k < 18 -> sz L k = 3.
Hypothesis Scomm : forall k, k < 3 -> ps < 8 * sz L k.
Hypothesis R0 : ro L t0 T0. Hypothesis R1 : ro L t1 T1. Hypothesis R2 : ro L t2 T2.
Hypothesis B0 : ps < 8 * length T0. Hypothesis B1 : ps < 8 * length T1. Hypothesis B2 : ps < 8 * length T2.

Definition AND_r : tri bool := (bit T0 ps, bit T1 ps, bit T2 ps).
Definition AND_o (i : nat) : bool := mpc_AND_out x z AND_r i.

Lemma runs_mpc_AND pa pb po tp cm v y c (Q : state -> Prop) :
  peval (iv y) (pv y) pa = Some (reg L ka) -> peval (iv y) (pv y) pb = Some (reg L kb) -> peval (iv y) (pv y) po = Some (reg L ko) ->
  pv y tp = [t0; t1; t2] -> pv y cm = [reg L 0; reg L 1; reg L 2] -> iv y v = ps ->
  heap L (nx y) (mm y) c -> c ka = tri_bytes x -> c kb = tri_bytes z ->
  (forall m' c' ct', heap L (nx y) m' c' -> c' ko = tri_bytes (AND_o 0, AND_o 1, AND_o 2) ->
     (forall i, i < 3 -> c' i = set_bit (c i) ps (AND_o i)) -> (forall k, 3 <= k -> k < 18 -> k <> ko -> c' k = c k) ->
     Q (mkState (upd (iv y) v (S ps)) (dv y) (pv y) m' (nx y) ct')) ->
  runs U (c_mpc_AND pa pb po tp cm v) y Q.
Proof.
  intros Ea Eb Eo Et Ec Ev H Ca Cb HQ. unfold c_mpc_AND. eapply runs_call; [cbn [pargevals pargeval pevals]; rewrite Ea, Eb, Eo, Et, Ec; reflexivity|].
  cbn [map ieval]. rewrite Ev. unfold mpc_AND_body. eapply (h_loc n0 m0 U L _ _ _ _ c); [exact HU|exact H|].
  cbn [iv dv pv mm nx ct ieval]. intros b Lb Bb. set (N0 := nx y) in *. set (L' := push L (N0, 0) 3).
  assert (Hn : n0 <= N0) by apply H.
  assert (H1 : heap L' (S N0) (upd (mm y) N0 b) (cset c 18 b)).
  { pose proof (heap_push n0 m0 L N0 (mm y) c b H Bb) as H1. rewrite Lb, HL in H1. exact H1. }
  assert (HL' : cnt L' = 19) by (unfold L'; cbn [cnt push]; rewrite HL; reflexivity).
  assert (G : forall k, k < 18 -> reg L' k = reg L k /\ sz L' k = sz L k).
  { intros k Hk. unfold L'. cbn [push reg sz]. rewrite HL, !upd_neq by lia. auto. }
  assert (G18 : reg L' 18 = (N0, 0) /\ sz L' 18 = 3).
  { unfold L'. cbn [push reg sz]. rewrite HL, !upd_eq. auto. }
  destruct G18 as [G18 G18'].
  assert (S3 : forall k, 12 <= k < 19 -> sz L' k = 3).
  { intros k Hk. destruct (Nat.eq_dec k 18) as [->|Hne]; [exact G18'|]. rewrite (proj2 (G k ltac:(lia))). apply Sloc. lia. }
  assert (R0' : ro L' t0 T0) by (apply ro_push; auto). assert (R1' : ro L' t1 T1) by (apply ro_push; auto). assert (R2' : ro L' t2 T2) by (apply ro_push; auto).
  (* r[] *)
  apply runs_seq. apply (runs_getBit U 0 _ _ _ t0 T0); [csimpl; reflexivity|csimpl; exact (heap_ro _ _ _ _ _ _ _ _ H1 R0')|csimpl; apply lt_div8; exact B0|].
  csimpl. apply runs_seq. eapply (h_st1 n0 m0 U L' _ _ _ _ 18 0 (N0, 0)); [exact H1|lia|exact G18|csimpl; reflexivity|lia|]. csimpl. rewrite b2n_mod. intros ma Ha.
  apply runs_seq. apply (runs_getBit U 0 _ _ _ t1 T1); [csimpl; reflexivity|csimpl; exact (heap_ro _ _ _ _ _ _ _ _ Ha R1')|csimpl; apply lt_div8; exact B1|].
  csimpl. apply runs_seq. eapply (h_st1 n0 m0 U L' _ _ _ _ 18 1 (N0, 0)); [exact Ha|lia|exact G18|csimpl; reflexivity|lia|]. csimpl. rewrite b2n_mod. intros mb Hb.
  apply runs_seq. apply (runs_getBit U 0 _ _ _ t2 T2); [csimpl; reflexivity|csimpl; exact (heap_ro _ _ _ _ _ _ _ _ Hb R2')|csimpl; apply lt_div8; exact B2|].
  csimpl. apply runs_seq. eapply (h_st1 n0 m0 U L' _ _ _ _ 18 2 (N0, 0)); [exact Hb|lia|exact G18|csimpl; reflexivity|lia|]. csimpl. rewrite b2n_mod. intros mc Hc.
  rewrite !cset_eq in Hc. rewrite list3 in Hc by exact Lb.
  set (c1 := cset c 18 (tri_bytes AND_r)).
  assert (Hc' : heap L' (S N0) mc c1).
  { apply (heap_ext _ _ _ _ _ _ _ Hc). intros k Hk. unfold c1. destruct (Nat.eq_dec k 18) as [->|Hne]; [rewrite !cset_eq; reflexivity|]. csets. reflexivity. }
  unfold set_mm, set_dv. csimpl. clear Hc Hb Ha H1 ma mb.
  (* one iteration *)
  set (pv1 := upd (args [] [[reg L ka]; [reg L kb]; [reg L ko]; [t0; t1; t2]; [reg L 0; reg L 1; reg L 2]]) 5 [(N0, 0)]).
  assert (It : forall i i' w ci (Q' : state -> Prop), i < 3 -> (i + 1) mod 3 = i' -> i' < 3 -> pv w = pv1 -> nx w = S N0 -> iv w 0 = ps -> iv w 1 = i ->
    heap L' (S N0) (mm w) ci -> ci ka = tri_bytes x -> ci kb = tri_bytes z -> ci 18 = tri_bytes AND_r -> length (ci ko) = 3 ->
    (forall dd' m', heap L' (S N0) m' (cset (cset ci ko (list_set (ci ko) i (b2n (AND_o i)))) i (set_bit (ci i) ps (AND_o i))) ->
       Q' (mkState (iv w) dd' pv1 m' (S N0) (ct w))) ->
    runs U (Seq (Ld 1 0 (byte_at 0 (IV 1))) (Seq (Ld 1 1 (byte_at 1 (next3 (IV 1))))
       (Seq (Ld 1 2 (byte_at 0 (next3 (IV 1)))) (Seq (Ld 1 3 (byte_at 1 (IV 1)))
       (Seq (Ld 1 4 (byte_at 5 (IV 1))) (Seq (Ld 1 5 (byte_at 5 (next3 (IV 1))))
       (Seq (St 1 (byte_at 2 (IV 1))
         (dxor (dxor (dxor (dxor (dand (DV 0) (DV 1)) (dand (DV 2) (DV 3))) (dand (DV 0) (DV 3))) (DV 4)) (DV 5)))
       (Seq (Ld 1 6 (byte_at 2 (IV 1)))
       (c_setBit (PV 4 (IV 1)) (IV 0) (DV 6)))))))))) w Q').
  { clear Hc' c1 HQ. intros i i' w ci Q' Hi Ei Hi' Wp Wn W0 W1 Hw Xa Xb Xr Lo HQ. destruct w as [wi wd wp wm wn wc]. cbn [iv pv mm nx ct] in *. subst wp wn.
    destruct (G ka ltac:(lia)) as [Ga Ga'], (G kb ltac:(lia)) as [Gb Gb'], (G ko ltac:(lia)) as [Go Go'], (G i ltac:(lia)) as [Gi Gi'].
    unfold byte_at, next3.
    assert (T3 : forall (t : tri bool) j, j < 3 -> nth j (tri_bytes t) 0%N = b2n (tget t j)).
    { intros t j Hj. destruct j as [|[|[|j]]]; [reflexivity|reflexivity|reflexivity|lia]. }
    eapply runs_seq, (h_ld1 n0 m0 U L' _ _ _ ci ka i (reg L ka)); [exact Hw|lia|exact Ga|csimpl; rewrite W1; apply ptr_add; lia|rewrite S3; lia|]. csimpl. rewrite Xa, T3 by exact Hi.
    eapply runs_seq, (h_ld1 n0 m0 U L' _ _ _ ci kb i' (reg L kb)); [exact Hw|lia|exact Gb|csimpl; rewrite W1, Ei; apply ptr_add; lia|rewrite S3; lia|]. csimpl. rewrite Xb, T3 by exact Hi'.
    eapply runs_seq, (h_ld1 n0 m0 U L' _ _ _ ci ka i' (reg L ka)); [exact Hw|lia|exact Ga|csimpl; rewrite W1, Ei; apply ptr_add; lia|rewrite S3; lia|]. csimpl. rewrite Xa, T3 by exact Hi'.
    eapply runs_seq, (h_ld1 n0 m0 U L' _ _ _ ci kb i (reg L kb)); [exact Hw|lia|exact Gb|csimpl; rewrite W1; apply ptr_add; lia|rewrite S3; lia|]. csimpl. rewrite Xb, T3 by exact Hi.
    eapply runs_seq, (h_ld1 n0 m0 U L' _ _ _ ci 18 i (N0, 0)); [exact Hw|lia|exact G18|csimpl; rewrite W1; peq|rewrite S3; lia|]. csimpl. rewrite Xr, T3 by exact Hi.
    eapply runs_seq, (h_ld1 n0 m0 U L' _ _ _ ci 18 i' (N0, 0)); [exact Hw|lia|exact G18|csimpl; rewrite W1, Ei; peq|rewrite S3; lia|]. csimpl. rewrite Xr, T3 by exact Hi'.
    eapply runs_seq, (h_st1 n0 m0 U L' _ _ _ ci ko i (reg L ko)); [exact Hw|lia|exact Go|csimpl; rewrite W1; apply ptr_add; lia|rewrite S3; lia|]. csimpl. rewrite and_val. intros m1 H1.
    rewrite <- Ei in H1 at 1 2 3. change (xorb _ _) with (AND_o i) in H1.
    eapply runs_seq, (h_ld1 n0 m0 U L' _ _ _ _ ko i (reg L ko)); [exact H1|lia|exact Go|csimpl; rewrite W1; apply ptr_add; lia|rewrite S3; lia|]. csimpl.
    rewrite cset_eq, nth_list_set, Nat.eqb_refl by lia.
    eapply (h_setBit n0 m0 U L' _ _ _ _ _ i (AND_o i)) with (1 := H1); [lia| | |csimpl; apply b2n_mod|].
    { csimpl. rewrite W1, Gi. destruct i as [|[|[|]]]; [reflexivity|reflexivity|reflexivity|lia]. }
    { csimpl. rewrite W0, Gi'. apply Scomm. lia. }
    csimpl. intros m2 H2. rewrite W0 in H2. rewrite (cset_neq _ ko _ i) in H2 by lia. apply HQ. exact H2. }
  set (c2 := cset (cset c1 ko (list_set (c1 ko) 0 (b2n (AND_o 0)))) 0 (set_bit (c1 0) ps (AND_o 0))) in *.
  set (c3 := cset (cset c2 ko (list_set (c2 ko) 1 (b2n (AND_o 1)))) 1 (set_bit (c2 1) ps (AND_o 1))) in *.
  set (c4 := cset (cset c3 ko (list_set (c3 ko) 2 (b2n (AND_o 2)))) 2 (set_bit (c3 2) ps (AND_o 2))) in *.
  assert (E1 : forall k, 12 <= k -> k <> ko -> k <> 18 -> c1 k = c k) by (intros k K1 K2 K3; unfold c1; csets; reflexivity).
  assert (E2 : forall k, 12 <= k -> k <> ko -> c2 k = c1 k) by (intros k K1 K2; unfold c2; csets; reflexivity).
  assert (E3 : forall k, 12 <= k -> k <> ko -> c3 k = c2 k) by (intros k K1 K2; unfold c3; csets; reflexivity).
  assert (E18 : c1 18 = tri_bytes AND_r) by (unfold c1; apply cset_eq).
  assert (Lo : length (c ko) = 3) by (rewrite (heap_len n0 m0 L _ _ _ H) by lia; apply Sloc; exact Hko).
  assert (O1 : c1 ko = c ko) by (unfold c1; csets; reflexivity).
  assert (O2 : c2 ko = list_set (c ko) 0 (b2n (AND_o 0))) by (unfold c2; csets; rewrite O1; reflexivity).
  assert (O3 : c3 ko = list_set (c2 ko) 1 (b2n (AND_o 1))) by (unfold c3; csets; reflexivity).
  apply runs_seq, runs_for3.
  apply (It 0 1 _ c1); [lia|reflexivity|lia|reflexivity|reflexivity|reflexivity|reflexivity|exact Hc'|rewrite E1 by lia; exact Ca|rewrite E1 by lia; exact Cb|exact E18|rewrite O1; exact Lo|].
  intros d1 m1 H1. fold c2 in H1. csimpl.
  apply (It 1 2 _ c2); [lia|reflexivity|lia|reflexivity|reflexivity|reflexivity|reflexivity|exact H1|rewrite E2, E1 by lia; exact Ca|rewrite E2, E1 by lia; exact Cb|rewrite E2 by lia; exact E18|rewrite O2, length_list_set; exact Lo|].
  intros d2 m2 H2. fold c3 in H2. csimpl.
  apply (It 2 0 _ c3); [lia|reflexivity|lia|reflexivity|reflexivity|reflexivity|reflexivity|exact H2|rewrite E3, E2, E1 by lia; exact Ca|rewrite E3, E2, E1 by lia; exact Cb|rewrite E3, E2 by lia; exact E18|rewrite O3, O2, !length_list_set; exact Lo|].
  intros d3 m3 H3. fold c4 in H3. csimpl. apply runs_iset. csimpl.
  exists c4. split; [exact H3|]. intros m' Hm. rewrite (Nat.add_1_r ps). apply (HQ m' c4 (S (ct y))).
  - exact Hm.
  - unfold c4. csets. rewrite O3, O2. apply list3. exact Lo.
  - intros i Hi. destruct i as [|[|[|i]]]; [| | |lia]; unfold c4, c3, c2, c1; csets; reflexivity.
  - intros k K1 K2 K3. unfold c4, c3, c2, c1. csets. reflexivity.
Qed.
End AND.
End Z.
