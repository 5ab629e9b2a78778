(** The linear layers of the ZKB++ computations on memory with pointers, for any number of players. *)

From Coq Require Import List NArith Arith Bool Lia ZifyBool ZifyNat ZifyN.
From Verif Require Import Base Params Env Spec LowMC Picnic1 MiniC CodeLowMC CodeZkb CodeSpec BaseFacts ParamFacts LowMCFacts
  MiniCFacts CodeRules CodeLowMCProofs CodeHeap CodeZkbProofs CodeZkbBits.
Import ListNotations.

Lemma heap_disj n0 m0 L n m c i j : heap n0 m0 L n m c -> i < cnt L -> j < cnt L -> i <> j -> disj (reg L i) (sz L i) (reg L j) (sz L j).
Proof. intros H. apply (lay_apart n0 L n (heap_lay n0 m0 L n m c H)). Qed.

Lemma runs_forn U (I : nat -> state -> Prop) x hi s st (Q : state -> Prop) :
  let n := ieval (iv st) hi in
  I 0 st -> (forall k y, k < n -> I k y -> runs U s (set_iv y (upd (iv y) x k)) (I (S k))) -> (forall y, I n y -> Q y) ->
  runs U (For x (IC 0) hi 1 s) st Q.
Proof.
  cbv zeta. intros H0 Hs HQ. assert (E : (ieval (iv st) hi - 0 + (1 - 1)) / 1 = ieval (iv st) hi) by (rewrite Nat.div_1_r; lia).
  apply runs_for with (I := I); cbn [ieval]; rewrite ?E; auto. intros k y Hk Hy. rewrite Nat.mul_1_r. cbn [Nat.add]. auto.
Qed.

Section Z.
Variables (n0 : nat) (m0 : memory) (U : nat -> nat -> bytes) (HU : locals_ok U).
Notation heap := (heap n0 m0).
Notation ro := (ro n0 m0).
Variable L : layout.

(** [region k ^= src]. *)
Lemma h_xor p p2 e st c k q l (Q : state -> Prop) : let len := ieval (iv st) e in
  peval (iv st) (pv st) p = Some (reg L k) -> peval (iv st) (pv st) p2 = Some q -> heap L (nx st) (mm st) c -> k < cnt L -> sz L k = 4 * len ->
  length l = 4 * len -> bytes_ok l -> pts (nx st) (mm st) q l -> disj (reg L k) (4 * len) q (4 * len) -> aligned (reg L k) -> aligned q ->
  (forall m' r, heap L (nx st) m' (cset c k r) -> xor_array (c k) (c k) l len = Ok r -> Q (set_mm st m')) ->
  runs U (c_xor_array p p p2 e) st Q.
Proof.
  cbv zeta. set (len := ieval (iv st) e). intros Ep E2 H Hk Sk Ll Bl Hl D A A2 HQ. pose proof (heap_pts _ _ _ _ _ _ H k Hk) as Pk.
  pose proof (heap_len _ _ _ _ _ _ H k Hk) as Lk. pose proof (heap_ok _ _ _ _ _ _ H k Hk) as Bk. rewrite Sk in Lk.
  apply (runs_xor_array U p p p2 e st (reg L k) (reg L k) q (c k) (c k) l); auto; [left; reflexivity|right; exact D|].
  fold len. intros m' Pm Cm. apply (HQ m' (lxor_list (c k) l)).
  - apply (heap_write n0 m0 L (nx st) (mm st)); auto.
    + rewrite length_lxor_list by congruence. congruence.
    + apply bytes_ok_lxor; auto.
    + rewrite Sk. exact Cm.
  - rewrite xor_array_ok by lia. rewrite !(firstn_all2 (n := 4 * len)) by lia. unfold blit_list. cbn [firstn Nat.add app]. rewrite skipn_all2, app_nil_r by (rewrite length_lxor_list; lia). reflexivity.
Qed.

(** [mpc_xor]: regions [a + i] ^= regions [b + i]. *)
Lemma h_mpc_xor s r e e' y c a b (Q : state -> Prop) : let len := ieval (iv y) e in let N := ieval (iv y) e' in
  (forall i, i < N -> nth_error (pv y s) i = Some (reg L (a + i))) -> (forall i, i < N -> nth_error (pv y r) i = Some (reg L (b + i))) ->
  (a + N <= b \/ b + N <= a) -> a + N <= cnt L -> b + N <= cnt L ->
  (forall i, i < N -> sz L (a + i) = 4 * len /\ sz L (b + i) = 4 * len /\ aligned (reg L (a + i)) /\ aligned (reg L (b + i))) ->
  heap L (nx y) (mm y) c ->
  (forall m' c', heap L (nx y) m' c' -> (forall i, i < N -> xor_array (c (a + i)) (c (a + i)) (c (b + i)) len = Ok (c' (a + i))) ->
     (forall k, k < a \/ a + N <= k -> c' k = c k) -> Q (set_mm y m')) ->
  runs U (c_mpc_xor s r e e') y Q.
Proof.
  cbv zeta. set (len := ieval (iv y) e). set (N := ieval (iv y) e'). intros Es Er D Ca Cb HS H HQ.
  unfold c_mpc_xor. eapply runs_call; [reflexivity|]. cbn [map ieval]. fold len N. unfold mpc_xor_body.
  set (pv1 := args [] [pv y s; pv y r]).
  apply runs_forn with (I := fun k z => pv z = pv1 /\ nx z = nx y /\ ct z = ct y /\ iv z 0 = len /\ exists c', heap L (nx y) (mm z) c' /\
    (forall i, i < k -> xor_array (c (a + i)) (c (a + i)) (c (b + i)) len = Ok (c' (a + i))) /\
    (forall j, j < a \/ a + k <= j -> c' j = c j)).
  - csimpl. repeat (split; [reflexivity|]). exists c. split; [exact H|]. split; [intros i Hi; lia|auto].
  - csimpl. intros k z Hk (Z1 & Z2 & Z3 & Z4 & c' & Hz & Hd & Hr). destruct z as [zi zd zp zm zn zc]. cbn [iv dv pv mm nx ct] in *. subst zp zn zc.
    destruct (HS k Hk) as (S1 & S2 & A1 & A2).
    apply (h_xor _ _ _ _ c' (a + k) (reg L (b + k)) (c (b + k))); csimpl.
    + exact (Es k Hk).
    + exact (Er k Hk).
    + exact Hz.
    + lia.
    + rewrite Z4. exact S1.
    + rewrite Z4, (heap_len _ _ _ _ _ _ H) by lia. exact S2.
    + apply (heap_ok _ _ _ _ _ _ H). lia.
    + rewrite <- (Hr (b + k)) by lia. apply (heap_pts _ _ _ _ _ _ Hz). lia.
    + rewrite Z4. rewrite <- S1 at 1. rewrite <- S2. apply (heap_disj _ _ _ _ _ _ _ _ Hz); lia.
    + exact A1.
    + exact A2.
    + intros m' x Hm Hx. repeat (split; [first [reflexivity|exact Z4]|]). exists (cset c' (a + k) x). split; [exact Hm|]. rewrite Z4, Hr in Hx by lia. split.
      * intros i Hi. destruct (Nat.eq_dec i k) as [->|Hne]; [rewrite cset_eq; exact Hx|]. rewrite cset_neq by lia. apply Hd. lia.
      * intros j Hj. rewrite cset_neq by lia. apply Hr. lia.
  - csimpl. intros z (Z1 & Z2 & Z3 & Z4 & c' & Hz & Hd & Hr). rewrite Z2, Z3. exact (HQ (mm z) c' Hz Hd Hr).
Qed.

(** [mpc_xor_constant] and one case of [mpc_xor_constant_verify]: one region [a] ^= constant. *)
Lemma h_xor_constant s i p e y c a q l (Q : state -> Prop) : let len := ieval (iv y) e in
  peval (iv y) (pv y) (PV s i) = Some (reg L a) -> peval (iv y) (pv y) p = Some q -> a < cnt L -> sz L a = 4 * len -> ro L q l -> length l = 4 * len -> bytes_ok l ->
  aligned (reg L a) -> aligned q -> heap L (nx y) (mm y) c ->
  (forall m' r, heap L (nx y) m' (cset c a r) -> xor_array (c a) (c a) l len = Ok r -> Q (set_mm y m')) ->
  runs U (c_xor_array (PV s i) (PV s i) p e) y Q.
Proof.
  cbv zeta. intros Es Ep Ha Sa Hq Ll Bl A1 A2 H HQ. apply (h_xor _ _ _ _ c a q l); auto.
  - exact (heap_ro _ _ _ _ _ _ _ _ H Hq).
  - pose proof (proj2 Hq a Ha) as D. rewrite Sa, Ll in D. exact D.
Qed.
Lemma h_mpc_xor_constant s p e y c a q l (Q : state -> Prop) : let len := ieval (iv y) e in
  nth_error (pv y s) 0 = Some (reg L a) -> peval (iv y) (pv y) p = Some q -> a < cnt L -> sz L a = 4 * len -> ro L q l -> length l = 4 * len -> bytes_ok l ->
  aligned (reg L a) -> aligned q -> heap L (nx y) (mm y) c ->
  (forall m' r, heap L (nx y) m' (cset c a r) -> xor_array (c a) (c a) l len = Ok r -> Q (set_mm y m')) ->
  runs U (c_mpc_xor_constant s p e) y Q.
Proof.
  cbv zeta. intros Es Ep Ha Sa Hq Ll Bl A1 A2 H HQ. unfold c_mpc_xor_constant. eapply runs_call; [cbn [pargevals pargeval pevals]; rewrite Ep; reflexivity|].
  cbn [map]. unfold mpc_xor_constant_body, P0. apply (h_xor_constant 0 (IC 0) _ _ _ c a q l); csimpl; auto.
Qed.

(** [mpc_matrix_mul]: regions [a + i] := M * source [i]; a source is not written, or is the region itself. *)
Variables (E : env) (P : paramset).
Hypothesis HP : wfP P.
Hypothesis HE : env_bytes_ok E.

Lemma h_mpc_matrix_mul o s p e' y c a (src : nat -> ptr) (x : nat -> bytes) q M (Q : state -> Prop) : let N := ieval (iv y) e' in
  (forall i, i < N -> nth_error (pv y o) i = Some (reg L (a + i))) -> (forall i, i < N -> nth_error (pv y s) i = Some (src i)) ->
  peval (iv y) (pv y) p = Some q -> a + N <= cnt L ->
  (forall i, i < N -> sz L (a + i) = 4 * stateSizeWords P) ->
  (forall i, i < N -> aligned (src i) /\ stateSizeBits P <= 8 * length (x i) /\ bytes_ok (x i) /\
     (ro L (src i) (x i) \/ src i = reg L (a + i) /\ x i = c (a + i))) ->
  ro L q M -> aligned q -> bytes_ok M -> length M = stateSizeBits P * (4 * stateSizeWords P) ->
  heap L (nx y) (mm y) c ->
  (forall m' c' u, heap L (nx y) m' c' -> (forall i, i < N -> matrix_mul E P (c (a + i)) (x i) M = Ok (c' (a + i))) ->
     (forall k, k < a \/ a + N <= k -> c' k = c k) -> Q (set_mc y m' u)) ->
  runs U (c_mpc_matrix_mul P o s p e') y Q.
Proof.
  cbv zeta. set (N := ieval (iv y) e'). intros Eo Es Ep Ca So HS Hq Aq BM LM H HQ.
  unfold c_mpc_matrix_mul. eapply runs_call; [cbn [pargevals pargeval pevals]; rewrite Ep; reflexivity|]. cbn [map]. fold N. unfold mpc_matrix_mul_body.
  set (pv1 := args [] [pv y o; pv y s; [q]]).
  apply runs_forn with (I := fun k z => pv z = pv1 /\ nx z = nx y /\ exists c', heap L (nx y) (mm z) c' /\
    (forall i, i < k -> matrix_mul E P (c (a + i)) (x i) M = Ok (c' (a + i))) /\
    (forall j, j < a \/ a + k <= j -> c' j = c j)).
  - csimpl. repeat (split; [reflexivity|]). exists c. split; [exact H|]. split; [intros i Hi; lia|auto].
  - csimpl. fold N. intros k z Hk (Z1 & Z2 & c' & Hz & Hd & Hr). destruct z as [zi zd zp zm zn zc]. cbn [iv dv pv mm nx ct] in *. subst zp zn.
    destruct (HS k Hk) as (A1 & L1 & B1 & Hx).
    assert (Hk' : a + k < cnt L) by lia.
    pose proof (heap_len _ _ _ _ _ _ Hz _ Hk') as Lo. pose proof (heap_ok _ _ _ _ _ _ Hz _ Hk') as Bo. pose proof (heap_pts _ _ _ _ _ _ Hz _ Hk') as Po.
    assert (Co : c' (a + k) = c (a + k)) by (apply Hr; lia).
    apply (runs_matrix_mul U P HP HU E _ _ _ _ (reg L (a + k)) (src k) q (c' (a + k)) (x k) M); csimpl; auto.
    + rewrite Lo. apply So, Hk.
    + destruct Hx as [Hx|[-> ->]]; [exact (heap_ro _ _ _ _ _ _ _ _ Hz Hx)|]. rewrite <- Co. exact Po.
    + exact (heap_ro _ _ _ _ _ _ _ _ Hz Hq).
    + intros m' u r Hm Pm Cm. unfold set_mc. csimpl. repeat (split; [reflexivity|]).
      pose proof (matrix_mul_spec E P HP (c' (a + k)) (x k) M HE B1 BM L1 LM ltac:(rewrite Lo, So; lia)) as Sr. rewrite Hm in Sr. destruct Sr as (Lr & Br & _).
      exists (cset c' (a + k) r). split.
      * apply (heap_write n0 m0 L (nx y) zm); auto; [congruence|]. rewrite So by exact Hk. exact Cm.
      * rewrite Co in Hm. split.
        -- intros i Hi. destruct (Nat.eq_dec i k) as [->|Hne]; [rewrite cset_eq; exact Hm|]. rewrite cset_neq by lia. apply Hd. lia.
        -- intros j Hj. rewrite cset_neq by lia. apply Hr. lia.
  - csimpl. fold N. intros z (Z1 & Z2 & c' & Hz & Hd & Hr). rewrite Z2. exact (HQ (mm z) c' (ct z) Hz Hd Hr).
Qed.

(** [memcpy] from one region to the start of another. *)
Lemma h_memcpy p p' e y c k k' (Q : state -> Prop) : let n := ieval (iv y) e in
  peval (iv y) (pv y) p = Some (reg L k) -> peval (iv y) (pv y) p' = Some (reg L k') -> k < cnt L -> k' < cnt L -> k <> k' ->
  sz L k = n -> n <= sz L k' -> 0 < n -> heap L (nx y) (mm y) c ->
  (forall m', heap L (nx y) m' (cset c k (firstn n (c k'))) -> Q (set_mm y m')) -> runs U (MemCpy p p' e) y Q.
Proof.
  cbv zeta. set (n := ieval (iv y) e). intros Ep Ep' Hk Hk' Hne Sk Sk' Hn H HQ.
  pose proof (heap_pts _ _ _ _ _ _ H k Hk) as P1. pose proof (heap_len _ _ _ _ _ _ H k Hk) as L1.
  pose proof (heap_pts _ _ _ _ _ _ H k' Hk') as P2. pose proof (heap_len _ _ _ _ _ _ H k' Hk') as L2.
  eapply (runs_memcpy U _ _ _ (reg L k) (reg L k')); [exact Ep|exact Ep'| | | |]; fold n.
  - apply (pts_valid (nx y) _ _ (c k)); auto; lia.
  - apply (pts_valid (nx y) _ _ (c k')); auto; lia.
  - pose proof (heap_disj _ _ _ _ _ _ _ _ H Hk Hk' Hne) as D. unfold separate, disj in *. lia.
  - rewrite (rdmem_pts (nx y) _ _ (c k')) by (auto; lia).
    assert (Lf : length (firstn n (c k')) = n) by (rewrite firstn_length; lia).
    destruct (wrmem_pts (nx y) (mm y) (reg L k) (firstn n (c k'))) as [D1 D2].
    + apply P1.
    + rewrite Lf. pose proof (pts_bound _ _ _ _ P1 ltac:(intros Hc; rewrite Hc in L1; cbn in L1; lia)). lia.
    + rewrite Lf in D2. apply HQ. apply (heap_write n0 m0 L (nx y) (mm y)); auto; [congruence|apply Forall_firstn, (heap_ok _ _ _ _ _ _ H k' Hk')|rewrite Sk; exact D2].
Qed.
End Z.
