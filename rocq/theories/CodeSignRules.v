(** Rules for numbered regions that the rounds of ZKB++ signing use: calls of the functions that hash, parts of regions,
    [zeroTrailingBits], [xor_three], several regions written at once. *)

From Coq Require Import List NArith Arith Bool Lia ZifyBool ZifyNat ZifyN.
From Verif Require Import Base Params Env Spec MiniC CodeLowMC CodeZkb CodeKeccak CodeSpec HashSpec CodeKeccakSpec CodeHashUses CodeHashUsesSpec CodeSign
  BaseFacts ParamFacts LowMCFacts MiniCFacts CodeRules CodeLowMCProofs CodeHeap CodeZkbProofs CodeZkbBits CodeZkbMpc CodeP3Proofs CodeP3Lin CodeXor.
Import ListNotations.
Local Open Scope c_scope.

Section Z.
Variables (n0 : nat) (m0 : memory) (U : nat -> nat -> bytes).
Notation heap := (heap n0 m0).
Notation ro := (ro n0 m0).
Notation at_ := (at_ n0 m0).
Variable L : layout.

(** Several regions change at once. *)
Lemma heap_multi n m m' c c' ws : heap L n m c -> chg n m m' ws ->
  (forall p k, In (p, k) ws -> exists i, i < cnt L /\ fst p = fst (reg L i) /\ snd (reg L i) <= snd p /\ snd p + k <= snd (reg L i) + sz L i) ->
  (forall i, i < cnt L -> pts n m' (reg L i) (c' i) /\ length (c' i) = sz L i /\ bytes_ok (c' i)) -> heap L n m' c'.
Proof.
  intros H Hc Hw Hn. pose proof (heap_lay _ _ _ _ _ _ H) as HL. split; [exact HL|intros; apply Hn; assumption|intros; apply Hn; assumption|intros; apply Hn; assumption|].
  assert (C2 : chg n m m' (regions L)).
  { apply (chg_mono _ _ _ _ _ Hc). intros p k Hp _. destruct (Hw p k Hp) as (i & Hi & F & A & B). exists (reg L i), (sz L i). split; [apply in_regions; exists i; auto|]. split; [congruence|]. auto. }
  apply (chg_trans n0 m0 m m' (regions L) (regions L)); auto; [apply (heap_chg _ _ _ _ _ _ H)|]. apply (chg_weaken n0 n _ _ _ C2). apply HL.
Qed.

(** A call of a function that leaves [d] at the start of region [k]. *)
Lemma h_leaves s pa ir ps y c k d (Q : state -> Prop) : pargevals (iv y) (pv y) pa = Some ps ->
  let z := mkState (args 0 []) (args 0%N []) (args [] ps) (mm y) (nx y) (ct y) in
  (exists z' t, run U s z = Some (z', t) /\ leaves z z' (reg L k) d /\ forall m' u, heap L (nx y) m' (cset c k (blit_list (c k) 0 d)) ->
     Q (mkState (copy_back ir (iv z') (iv y)) (dv y) (pv y) m' (nx y) u)) ->
  k < cnt L -> length d <= sz L k -> bytes_ok d -> heap L (nx y) (mm y) c -> runs U (Call s [] [] pa ir []) y Q.
Proof.
  intros Hp z (z' & t & R & (A1 & A2 & _ & _ & _ & A6) & HQ) Hk Hl Hb H. eapply runs_call; [exact Hp|]. cbn [map]. fold z. unfold runs. rewrite R. cbn [copy_back]. rewrite A6. apply HQ.
  cbn [nx mm z] in A1, A2. apply (heap_patch n0 m0 L (nx y) (mm y)); auto; rewrite eq_plus0; assumption.
Qed.

(** memcpy from inside a region to the start of another. *)
Lemma h_memcpy_off p p' e y c k k' o (Q : state -> Prop) : let n := ieval (iv y) e in
  peval (iv y) (pv y) p = Some (reg L k) -> peval (iv y) (pv y) p' = Some (fst (reg L k'), snd (reg L k') + o) -> k < cnt L -> k' < cnt L -> k <> k' ->
  n <= sz L k -> o + n <= sz L k' -> 0 < n -> heap L (nx y) (mm y) c ->
  (forall m', heap L (nx y) m' (cset c k (blit_list (c k) 0 (firstn n (skipn o (c k'))))) -> Q (set_mm y m')) -> runs U (MemCpy p p' e) y Q.
Proof.
  cbv zeta. set (n := ieval (iv y) e). intros Ep Ep' Hk Hk' Hne Sk Sk' Hn H HQ.
  pose proof (heap_pts _ _ _ _ _ _ H k Hk) as P1. pose proof (heap_len _ _ _ _ _ _ H k Hk) as L1.
  pose proof (heap_pts _ _ _ _ _ _ H k' Hk') as P2. pose proof (heap_len _ _ _ _ _ _ H k' Hk') as L2.
  pose proof (pts_sub _ _ _ _ o n P2 ltac:(lia)) as P3. set (x := firstn n (skipn o (c k'))) in *.
  assert (Lx : length x = n) by (unfold x; rewrite firstn_length, skipn_length; lia).
  eapply (runs_memcpy U _ _ _ (reg L k) _); [exact Ep|exact Ep'| | | |]; fold n.
  - apply (pts_valid (nx y) _ _ (c k)); auto; lia.
  - apply (pts_valid (nx y) _ _ x); auto; lia.
  - pose proof (heap_disj _ _ _ _ _ _ _ _ H Hk Hk' Hne) as D. unfold separate, disj in *. cbn [fst snd]. lia.
  - rewrite (rdmem_pts (nx y) _ _ x) by (auto; lia). rewrite firstn_all2 by lia.
    destruct (wrmem_pts (nx y) (mm y) (reg L k) x) as [D1 D2].
    + apply P1.
    + rewrite Lx. pose proof (pts_bound _ _ _ _ P1 ltac:(intros Hc; rewrite Hc in L1; cbn in L1; lia)). lia.
    + apply HQ. apply (heap_patch n0 m0 L (nx y) (mm y)); auto; [lia| |rewrite eq_plus0; exact D1|rewrite eq_plus0; exact D2].
      unfold x. apply Forall_firstn. pose proof (heap_ok _ _ _ _ _ _ H k' Hk') as B. rewrite <- (firstn_skipn o (c k')) in B. apply bytes_ok_app in B. apply B.
Qed.

Lemma h_zeroTrailingBits p bl y c k r (Q : state -> Prop) : peval (iv y) (pv y) p = Some (reg L k) -> k < cnt L -> numBytes bl <= sz L k ->
  heap L (nx y) (mm y) c -> zeroTrailingBits (c k) bl = Ok r ->
  (forall m', heap L (nx y) m' (cset c k r) -> Q (set_mm y m')) -> runs U (c_zeroTrailingBits p bl) y Q.
Proof.
  intros Ep Hk Sk H Hr HQ. unfold c_zeroTrailingBits. eapply runs_call; [cbn [pargevals pargeval pevals]; rewrite Ep; reflexivity|]. cbn [map].
  unfold zeroTrailingBits in Hr. unfold zeroTrailingBits_body. set (K := numBytes bl * 8 - bl) in *.
  assert (Hit : forall x, (ieval x (IC (numBytes bl * 8)) - ieval x (IC bl) + (1 - 1)) / 1 = K) by (intros x; cbn [ieval]; rewrite Nat.div_1_r; unfold K; lia).
  set (ps := args [] [[reg L k]]).
  apply runs_for with (I := fun j z => dv z = args 0%N [] /\ pv z = ps /\ nx z = nx y /\ ct z = ct y /\ exists l, heap L (nx y) (mm z) (cset c k l) /\
    for_loop j bl (fun i d => setBit d i false) (c k) = Ok l).
  - repeat (split; [reflexivity|]). exists (c k). split; [|reflexivity]. apply (heap_ext _ _ _ _ _ _ _ H). intros i Hi. unfold cset. destruct (Nat.eqb_spec i k) as [->|]; reflexivity.
  - rewrite Hit. intros j z Hj (Z1 & Z2 & Z3 & Z4 & l & Hl & Hf). destruct z as [zi zd zp zm zn zc]. cbn [iv dv pv mm nx ct] in *. subst zd zp zn zc.
    assert (Ll : length l = sz L k) by (pose proof (heap_len _ _ _ _ _ _ Hl k Hk) as X; rewrite cset_eq in X; exact X).
    eapply (h_setBit n0 m0 U L _ _ _ _ (cset c k l) k false); csimpl; [exact Hl|exact Hk|reflexivity| |reflexivity|].
    + unfold K in Hj. lia.
    + rewrite cset_eq, Nat.mul_1_r. intros m' Hm. unfold set_mm. cbn [iv dv pv mm nx ct]. repeat (split; [reflexivity|]).
      exists (set_bit l (bl + j) false). split.
      * apply (heap_ext _ _ _ _ _ _ _ Hm). intros i Hi. unfold cset. destruct (Nat.eqb_spec i k) as [->|]; reflexivity.
      * rewrite for_loop_snoc, Hf, bind_Ok. apply setBit_ok. apply Nat.div_lt_upper_bound; [lia|]. unfold K in Hj. lia.
  - rewrite Hit. intros z (Z1 & Z2 & Z3 & Z4 & l & Hl & Hf). rewrite Hr in Hf. injection Hf as <-. rewrite Z3, Z4. cbn [copy_back]. apply HQ. exact Hl.
Qed.

(** The exclusive or of three areas to the start of a region. *)
Lemma h_xor_three po p1 p2 p3 e y c k q1 q2 q3 x1 x2 x3 (Q : state -> Prop) : let len := ieval (iv y) e in
  peval (iv y) (pv y) po = Some (reg L k) -> peval (iv y) (pv y) p1 = Some q1 -> peval (iv y) (pv y) p2 = Some q2 -> peval (iv y) (pv y) p3 = Some q3 ->
  k < cnt L -> len <= sz L k -> at_ L c q1 x1 -> at_ L c q2 x2 -> at_ L c q3 x3 -> len <= length x1 -> len <= length x2 -> len <= length x3 ->
  bytes_ok x1 -> bytes_ok x2 -> bytes_ok x3 -> q1 <> reg L k -> q2 <> reg L k -> q3 <> reg L k ->
  aligned (reg L k) -> aligned q1 -> aligned q2 -> aligned q3 -> heap L (nx y) (mm y) c ->
  (forall m', heap L (nx y) m' (cset c k (blit_list (c k) 0 (lxor_list (lxor_list (firstn len x1) (firstn len x2)) (firstn len x3)))) -> Q (set_mm y m')) ->
  runs U (c_xor_three po p1 p2 p3 e) y Q.
Proof.
  cbv zeta. set (len := ieval (iv y) e). intros Eo E1 E2 E3 Hk Sk A1 A2 A3 L1 L2 L3 B1 B2 B3 N1 N2 N3 G0 G1 G2 G3 H HQ.
  pose proof (heap_pts _ _ _ _ _ _ H k Hk) as Pk. pose proof (heap_len _ _ _ _ _ _ H k Hk) as Lk.
  assert (F : forall l : bytes, len <= length l -> length (firstn len l) = len) by (intros l Hl; apply firstn_length_le, Hl).
  assert (D : forall q x, at_ L c q x -> len <= length x -> q <> reg L k -> disj (reg L k) len q len).
  { intros q x A Lx Ne. destruct (at_eqdisj n0 m0 L _ _ _ _ _ _ len H Hk A Sk Lx) as [X|X]; [congruence|exact X]. }
  apply (runs_xor_three U po p1 p2 p3 e y (reg L k) q1 q2 q3 (firstn len (c k)) (firstn len x1) (firstn len x2) (firstn len x3)); auto; fold len.
  - apply F. lia.
  - apply Forall_firstn, B1.
  - apply Forall_firstn, B2.
  - apply Forall_firstn, B3.
  - apply pts_firstn, Pk.
  - apply pts_firstn, (at_pts n0 m0 L _ _ _ _ _ H A1).
  - apply pts_firstn, (at_pts n0 m0 L _ _ _ _ _ H A2).
  - apply pts_firstn, (at_pts n0 m0 L _ _ _ _ _ H A3).
  - eapply D; eauto.
  - eapply D; eauto.
  - eapply D; eauto.
  - intros m' Pm Cm. set (v := lxor_list _ _) in *.
    assert (Lv : length v = len) by (unfold v; rewrite !length_lxor_list; rewrite ?length_lxor_list, ?F; auto; rewrite ?F; auto).
    apply HQ. apply (heap_patch n0 m0 L (nx y) (mm y)); auto; [lia| |rewrite eq_plus0; exact Pm|rewrite eq_plus0, Lv; exact Cm].
    unfold v. repeat apply bytes_ok_lxor; apply Forall_firstn; auto.
Qed.

(** What the functions that hash want to know. *)
Lemma z_constants y ps qr : pts (nx y) (mm y) qr round_constant_bytes -> snd qr mod 8 = 0 -> nth 0 ps [] = [qr] ->
  constants (mkState (args 0 []) (args 0%N []) (args [] ps) (mm y) (nx y) (ct y)) qr.
Proof. intros H A B. unfold constants. cbn [pv nx mm]. split; [exact B|]. split; [exact A|exact H]. Qed.
End Z.
