(** Merkle trees on memory with pointers. *)

From Coq Require Import List NArith Arith Bool Lia ZifyBool ZifyNat ZifyN.
From Verif Require Import Base Params Env Spec MiniC CodeLowMC CodeSpec HashSpec CodeKeccakSpec CodeZkbSpec CodeHashUses Tree CodeTree CodeTreeSpec CodeMerkle CodeMerkleSpec
  BaseFacts ParamFacts UtilFacts HashProofs MiniCFacts CodeRules CodeLowMCProofs CodeHeap CodeP3Lin CodeP3Sim CodeHashUsesTop CodeSignRules TreeShape TreeSeed TreeMissing TreeMerkle TreeTop CodeTreeProofs CodeTreeThm CodeWitness Witness.
From Verif Require CodeHashUsesSpec CodeSignProofs.
Import ListNotations.
Local Open Scope c_scope.

Section X.
Variables (n0 : nat) (m0 : memory) (U : nat -> nat -> bytes) (HU : locals_ok U) (L : layout) (n1 : nat) (pv0 : nat -> list ptr) (E : env) (P : paramset) (n D : nat).
Notation Es := (with_shake E).
Notation nn := (nN n D).
Notation s := (digestSizeBytes P).
Hypothesis Hs0 : 0 < s <= 64.
Hypothesis Hc : cnt L = nn + 2.
Hypothesis Hs : forall k, k < nn -> sz L k = s.
Hypothesis Hsh : sz L nn = nn.
Hypothesis Hse : sz L (nn + 1) = nn.
Hypothesis P9 : forall k, k < nn -> nth_error (pv0 9) k = Some (reg L k).
Hypothesis P10 : pv0 10 = [reg L nn].
Hypothesis P11 : pv0 11 = [reg L (nn + 1)].
Variables (qr qs : ptr) (salt : bytes).
Hypothesis P0' : pv0 0 = [qr].
Hypothesis A0 : snd qr mod 8 = 0.
Hypothesis R0 : ro n0 m0 L qr round_constant_bytes.
Hypothesis P4 : pv0 4 = [qs].
Hypothesis R4 : ro n0 m0 L qs salt.
Hypothesis B4 : bytes_ok salt.
Hypothesis L4 : saltSizeBytes P <= length salt.
Hypothesis S4 : short salt.

Notation at_ := (at_st n0 m0 L n1 pv0).

(** The hash for a parent. *)
Lemma run_children c z t p (hr : bool) t' (Q : state -> Prop) : at_ c z -> trel n D c t -> shape n D s t -> 2 * p + 1 < nn -> (hr = true -> 2 * p + 2 < nn) ->
  put_node t p (hash Es P HASH_PREFIX_3 [nd t (2 * p + 1); if hr then nd t (2 * p + 2) else []; firstn (saltSizeBytes P) salt; intLE p] s) = Ok t' ->
  (forall z' c', at_ c' z' -> trel n D c' t' -> shape n D s t' -> Q z') -> runs U (c_hash_children P hr p) z Q.
Proof.
  intros X T H Hp Hr M HQ. pose proof X as (A & B & Hh0). pose proof (eq_ind_r (fun x => heap n0 m0 L x (mm z) _) Hh0 B) as Hh. cbn beta in Hh.
  set (ps := [[qr]; []; []; pv0 9; [qs]]).
  set (z0 := mkState (args 0 []) (args 0%N []) (args [] ps) (mm z) (nx z) (ct z)). pose proof T as (T1 & _).
  assert (Ln : forall x, x < nn -> length (nd t x) = s) by (intros x Hx; apply (sh_nl _ _ _ _ H), Hx).
  assert (Hd : forall x, x < nn -> CodeHashUsesSpec.holds z0 3 x s (nd t x)).
  { intros x Hx. exists (reg L x). split; [apply P9, Hx|]. rewrite <- (T1 x Hx). split; [apply (heap_pts _ _ _ _ _ _ Hh); lia|].
    split; [apply (heap_ok _ _ _ _ _ _ Hh); lia|]. rewrite (T1 x Hx), (Ln x Hx). split; [lia|]. unfold short. rewrite (Ln x Hx). lia. }
  destruct (parentHash_code U HU E P z0 qr (reg L p) hr p (nd t (2 * p + 1)) (nd t (2 * p + 2)) salt) as [MS (z' & tr & Rn & Lv)].
  { apply (z_constants z ps qr); [exact (heap_ro _ _ _ _ _ _ _ _ Hh R0)|exact A0|reflexivity]. }
  { split; [apply P9; lia|]. split.
    - exists (c p). split; [rewrite (heap_len _ _ _ _ _ _ Hh p) by lia; apply Hs; lia|]. apply (heap_pts _ _ _ _ _ _ Hh). lia.
    - pose proof (proj2 R0 p ltac:(lia)) as Dj. change (length round_constant_bytes) with 192 in Dj. rewrite Hs in Dj by lia. unfold disj in *. lia. }
  { apply Hd, Hp. }
  { intros K. apply Hd, (Hr K). }
  { exists qs. split; [reflexivity|]. split; [exact (heap_ro _ _ _ _ _ _ _ _ Hh R4)|auto]. }
  cbv zeta in MS, Lv. rewrite (firstn_all2 (nd t (2 * p + 1))) in MS, Lv by (rewrite Ln by exact Hp; lia).
  assert (Er : (if hr then firstn s (nd t (2 * p + 2)) else []) = (if hr then nd t (2 * p + 2) else [])).
  { destruct hr; [|reflexivity]. apply firstn_all2. rewrite Ln by auto. lia. }
  rewrite Er in MS, Lv. set (d := shake _ _ _) in *. assert (M2 : put_node t p d = Ok t') by (rewrite <- MS; exact M). clear M. rename M2 into M.
  assert (Ld : length d = s) by apply shake_ok.
  unfold c_hash_children. apply runs_seq. apply (h_leaves n0 m0 U L _ _ _ ps z c p d).
  - cbn [pargevals pargeval pevals]. rewrite A, P0', P4. reflexivity.
  - cbv zeta. fold z0. exists z', tr. split; [exact Rn|]. split; [exact Lv|]. intros m1 u1 H1. cbn [copy_back].
    rewrite CodeSignProofs.blit_list_all in H1 by (rewrite Ld, (heap_len _ _ _ _ _ _ Hh p) by lia; apply Hs; lia).
    apply (g_set_have n0 m0 U L n1 pv0 nn ltac:(lia) Hsh Hse P10 (cset c p d)); [|lia|].
    + split; [exact A|]. split; [exact B|]. exact (eq_ind _ (fun x => heap n0 m0 L x m1 _) H1 _ B).
    + intros z2 X2. rewrite cset_neq in X2 by lia. pose proof M as M'. rewrite (put_node_eq s n D t p d H ltac:(lia) Ld) in M'. injection M' as <-.
      apply (HQ z2 _ X2); [apply (trel_put s n D); [exact H|lia|exact T]|apply (put_shape s n D t p d _ H ltac:(lia) Ld M)].
  - lia.
  - rewrite Ld, Hs by lia. lia.
  - apply shake_ok.
  - exact Hh.
Qed.

Lemma rd_in {A} (l : list A) i v : rd l i = Ok v -> i < length l /\ nth_error l i = Some v.
Proof. unfold rd. destruct (nth_error l i) eqn:K; intros [= <-]. split; [apply nth_error_Some; congruence|reflexivity]. Qed.

Lemma run_set_parent c z t p t' (Q : state -> Prop) : at_ c z -> trel n D c t -> shape n D s t -> 2 * p + 1 < nn ->
  bind (hasRightChild t p) (fun rc => bind (if (rc : bool) then bind (rd (t_nodes t) (2 * p + 2)) (fun r => slice r 0 s) else Ok []) (fun r =>
    put_node t p (hash Es P HASH_PREFIX_3 [nd t (2 * p + 1); r; firstn (saltSizeBytes P) salt; intLE p] s))) = Ok t' ->
  (forall z' c', at_ c' z' -> trel n D c' t' -> shape n D s t' -> Q z') -> runs U (c_set_parent P nn p) z Q.
Proof.
  intros X T H Hp M HQ. unfold c_set_parent. apply runs_if with (b := 2 * p + 2 <? nn); [reflexivity|]. unfold hasRightChild in M. rewrite (sh_N _ _ _ _ H) in M.
  destruct (Nat.ltb_spec (2 * p + 2) nn) as [Hr|Hr].
  - destruct (tree_exists t p) as [e| | |] eqn:Me; cbn [bind] in M; try discriminate. unfold tree_exists in Me. rewrite (sh_N _ _ _ _ H) in Me. pose proof T as (_ & _ & T3).
    apply runs_seq. apply (g_exists n0 m0 U L n1 pv0 nn ltac:(lia) Hsh Hse P11 c z (t_exists t) p e _ X T3 Me). intros z1 X1 I1.
    eapply runs_if; [apply ceq1|]. rewrite I1. destruct e; cbn [Nat.eqb].
    + rewrite (rd_node n D s) in M by auto. cbn [bind] in M. rewrite slice_all in M by (symmetry; apply (sh_nl _ _ _ _ H), Hr). cbn [bind] in M.
      apply (run_children c z1 t p true t' Q X1 T H Hp (fun _ => Hr) M HQ).
    + cbn [bind] in M. apply (run_children c z1 t p false t' Q X1 T H Hp ltac:(discriminate) M HQ).
  - cbn [bind] in M. apply (run_children c z t p false t' Q X T H Hp ltac:(discriminate) M HQ).
Qed.

Lemma run_parent c z t i t' (Q : state -> Prop) : at_ c z -> trel n D c t -> shape n D s t -> computeParentHash Es P salt i t = Ok t' ->
  (forall z' c', at_ c' z' -> trel n D c' t' -> shape n D s t' -> Q z') -> runs U (c_parent P nn i) z Q.
Proof.
  intros X T H M HQ. unfold computeParentHash in M. unfold c_parent. cbv zeta. pose proof T as (T1 & T2 & T3).
  assert (Te : forall x, tree_exists t x = exists_arr nn (t_exists t) x) by (intros x; unfold tree_exists; rewrite (sh_N _ _ _ _ H); reflexivity).
  assert (Fl : forall x, nth x (c nn) 0%N = flag (hv t x)) by (intros x; rewrite T2; apply nth_flag).
  rewrite Te in M. destruct (exists_arr nn (t_exists t) i) as [e| | |] eqn:Me; cbn [bind] in M; try discriminate.
  apply runs_seq. apply (g_exists n0 m0 U L n1 pv0 nn ltac:(lia) Hsh Hse P11 c z (t_exists t) i e _ X T3 Me). intros z1 X1 I1.
  eapply runs_if; [apply ceq1|]. rewrite I1. destruct e; cbn [Nat.eqb negb] in *.
  2:{ apply runs_skip. injection M as <-. apply (HQ z1 c); assumption. }
  destruct (getParent i) as [p| | |] eqn:Mp; cbn [bind] in M; try discriminate. apply getParent_parent in Mp. rewrite Mp. clear Mp.
  destruct (rd (t_haveNode t) p) as [hp| | |] eqn:Mh; cbn [bind] in M; try discriminate. apply rd_in in Mh. destruct Mh as [Hp Mh]. rewrite (sh_have _ _ _ _ H) in Hp.
  apply runs_seq. apply (g_have n0 m0 U L n1 pv0 nn ltac:(lia) Hsh Hse P10 c z1 p _ X1 Hp). intros z2 X2 D2. apply runs_ifd. cbn [deval]. rewrite D2, Fl.
  unfold hv. rewrite (nth_error_nth _ _ _ Mh). destruct hp; cbn [flag N.eqb negb] in *.
  { apply runs_skip. injection M as <-. apply (HQ z2 c); assumption. }
  destruct (rd (t_haveNode t) (2 * p + 1)) as [hl| | |] eqn:Ml; cbn [bind] in M; try discriminate. apply rd_in in Ml. destruct Ml as [Hl Ml]. rewrite (sh_have _ _ _ _ H) in Hl.
  apply runs_seq. apply (g_have n0 m0 U L n1 pv0 nn ltac:(lia) Hsh Hse P10 c z2 (2 * p + 1) _ X2 Hl). intros z3 X3 D3. apply runs_ifd. cbn [deval]. rewrite D3, Fl.
  unfold hv. rewrite (nth_error_nth _ _ _ Ml). destruct hl; cbn [flag N.eqb negb] in *.
  2:{ apply runs_skip. injection M as <-. apply (HQ z3 c); assumption. }
  rewrite Te in M. destruct (exists_arr nn (t_exists t) (2 * p + 2)) as [er| | |] eqn:Mr; cbn [bind] in M; try discriminate.
  apply runs_seq. apply (g_exists n0 m0 U L n1 pv0 nn ltac:(lia) Hsh Hse P11 c z3 (t_exists t) (2 * p + 2) er _ X3 T3 Mr). intros z4 X4 I4.
  assert (G : forall z5, at_ c z5 -> forall t'', bind (rd (t_nodes t) (2 * p + 1)) (fun l => bind (slice l 0 s) (fun l => bind (hasRightChild t p) (fun rc =>
     bind (if (rc : bool) then bind (rd (t_nodes t) (2 * p + 2)) (fun r => slice r 0 s) else Ok []) (fun r => bind (slice salt 0 (saltSizeBytes P)) (fun sl =>
     put_node t p (hash Es P HASH_PREFIX_3 [l; r; sl; intLE p] s)))))) = Ok t'' -> t'' = t' -> runs U (c_set_parent P nn p) z5 Q).
  { intros z5 X5 t'' M5 ->. rewrite (rd_node n D s) in M5 by auto. cbn [bind] in M5. rewrite slice_all in M5 by (symmetry; apply (sh_nl _ _ _ _ H), Hl). cbn [bind] in M5.
    rewrite slice0_ok in M5 by exact L4. cbn [bind] in M5. apply (run_set_parent c z5 t p t' Q X5 T H Hl M5 HQ). }
  eapply runs_if; [apply ceq1|]. rewrite I4. destruct er; cbn [Nat.eqb bind negb] in *.
  2:{ apply (G z4 X4 t' M eq_refl). }
  destruct (rd (t_haveNode t) (2 * p + 2)) as [hr| | |] eqn:Mhr; cbn [bind] in M; try discriminate. apply rd_in in Mhr. destruct Mhr as [Hr Mhr]. rewrite (sh_have _ _ _ _ H) in Hr.
  apply runs_seq. apply (g_have n0 m0 U L n1 pv0 nn ltac:(lia) Hsh Hse P10 c z4 (2 * p + 2) _ X4 Hr). intros z5 X5 D5. apply runs_ifd. cbn [deval]. rewrite D5, Fl.
  unfold hv. rewrite (nth_error_nth _ _ _ Mhr). destruct hr; cbn [flag N.eqb negb] in *.
  - apply (G z5 X5 t' M eq_refl).
  - apply runs_skip. injection M as <-. apply (HQ z5 c); assumption.
Qed.

Lemma run_parents i : forall c z t t' (Q : state -> Prop), at_ c z -> trel n D c t -> shape n D s t -> for_down i (computeParentHash Es P salt) t = Ok t' ->
  (forall z' c', at_ c' z' -> trel n D c' t' -> shape n D s t' -> Q z') -> runs U (c_parents P nn i) z Q.
Proof.
  induction i as [|i IH]; intros c z t t' Q X T H M HQ; cbn [for_down] in M; cbn [c_parents].
  - injection M as <-. apply runs_skip. apply (HQ z c); assumption.
  - destruct (computeParentHash Es P salt (S i) t) as [t1| | |] eqn:M1; cbn [bind] in M; try discriminate.
    apply runs_seq. apply (run_parent c z t (S i) t1 _ X T H M1). intros z1 c1 X1 T1 H1. apply (IH c1 z1 t1 t' Q X1 T1 H1 M HQ).
Qed.

(** The leaves. *)
Lemma run_put_leaf c z t i d q t' (Q : state -> Prop) : n <= nn -> at_ c z -> trel n D c t -> shape n D s t -> i < n ->
  s <= length d -> bytes_ok d -> nth_error (pv0 3) i = Some q -> ro n0 m0 L q d -> put_node t (nn - n + i) (firstn s d) = Ok t' ->
  (forall z' c', at_ c' z' -> trel n D c' t' -> shape n D s t' -> Q z') -> runs U (c_leaf P nn n i) z Q.
Proof.
  clear R0 A0 R4 B4 L4 S4 P0' P4 P11. intros Hnn X T H Hi Ll Bd Eq Rq M HQ.
  assert (Hx : nn - n + i < nn) by lia. set (x := nn - n + i) in *. assert (Lf : length (firstn s d) = s) by (rewrite firstn_length; lia).
  pose proof X as (A & B & Hh0). pose proof (eq_ind_r (fun x => heap n0 m0 L x (mm z) _) Hh0 B) as Hh. cbn beta in Hh.
  unfold c_leaf. fold x. apply runs_seq. apply (h_memcpy_part n0 m0 U L _ _ _ z c x q d); cbn [ieval].
  - cbn [peval ieval]. rewrite A. apply P9, Hx.
  - cbn [peval ieval]. rewrite A. exact Eq.
  - lia.
  - intros Heq. destruct Rq as [_ Dj]. specialize (Dj x ltac:(lia)). rewrite Hs in Dj by exact Hx. rewrite <- Heq in Dj. unfold disj in Dj. lia.
  - left. exact Rq.
  - exact Bd.
  - rewrite Hs by exact Hx. lia.
  - exact Ll.
  - lia.
  - exact Hh.
  - intros m1 H1. rewrite CodeSignProofs.blit_list_all in H1 by (rewrite Lf, (heap_len _ _ _ _ _ _ Hh x) by lia; apply Hs, Hx).
    apply (g_set_have n0 m0 U L n1 pv0 nn ltac:(lia) Hsh Hse P10 (cset c x (firstn s d))); [|lia|].
    + split; [exact A|]. split; [exact B|]. exact (eq_ind _ (fun x => heap n0 m0 L x m1 _) H1 _ B).
    + intros z2 X2. rewrite cset_neq in X2 by lia. pose proof M as M'. rewrite (put_node_eq s n D t x _ H Hx Lf) in M'. injection M' as <-.
      apply (HQ z2 _ X2); [apply (trel_put s n D); [exact H|exact Hx|exact T]|apply (put_shape s n D t x _ _ H Hx Lf M)].
Qed.

Variable leaves : list bytes.
Hypothesis HL : length leaves = n.
Hypothesis P3 : forall i d, nth_error leaves i = Some d -> s <= length d /\ bytes_ok d /\ exists q, nth_error (pv0 3) i = Some q /\ ro n0 m0 L q d.
Hypothesis Hnn : n <= nn.

Definition leaf_step (i : nat) (t : tree) : res tree := bind (rd (map (@Some bytes) leaves) i) (fun o =>
  match o with None => Ok t | Some d => bind (slice d 0 (t_dataSize t)) (fun d => put_node t (firstLeaf t + i) d) end).

Lemma run_leaf c z t i t' (Q : state -> Prop) : at_ c z -> trel n D c t -> shape n D s t -> i < n -> leaf_step i t = Ok t' ->
  (forall z' c', at_ c' z' -> trel n D c' t' -> shape n D s t' -> Q z') -> runs U (c_leaf P nn n i) z Q.
Proof.
  intros X T H Hi M HQ. unfold leaf_step in M. destruct (nth_error leaves i) as [d|] eqn:Ei; [|apply nth_error_None in Ei; lia].
  unfold rd in M. rewrite nth_error_map, Ei in M. cbn [option_map bind] in M. destruct (P3 i d Ei) as (Ll & Bd & q & Eq & Rq).
  rewrite (sh_sz _ _ _ _ H), slice0_ok in M by exact Ll. cbn [bind] in M.
  assert (Ef : firstLeaf t = nn - n) by (unfold firstLeaf; rewrite (sh_N _ _ _ _ H), (sh_n _ _ _ _ H); reflexivity). rewrite Ef in M.
  apply (run_put_leaf c z t i d q t' Q Hnn X T H Hi Ll Bd Eq Rq M HQ).
Qed.

Lemma run_leaves k : forall i c z t t' (Q : state -> Prop), at_ c z -> trel n D c t -> shape n D s t -> i + k <= n -> for_loop k i leaf_step t = Ok t' ->
  (forall z' c', at_ c' z' -> trel n D c' t' -> shape n D s t' -> Q z') -> runs U (c_leaves P nn n i k) z Q.
Proof.
  induction k as [|k IH]; intros i c z t t' Q X T H Hi M HQ; cbn [for_loop] in M; cbn [c_leaves].
  - injection M as <-. apply runs_skip. apply (HQ z c); assumption.
  - destruct (leaf_step i t) as [t1| | |] eqn:M1; cbn [bind] in M; try discriminate.
    apply runs_seq. apply (run_leaf c z t i t1 _ X T H ltac:(lia) M1). intros z1 c1 X1 T1 H1. apply (IH (S i) c1 z1 t1 t' Q X1 T1 H1); [lia|exact M|exact HQ].
Qed.
End X.

Section T.
Variables (U : nat -> nat -> bytes) (HU : locals_ok U) (E : env) (P : paramset) (n : nat).
Notation Es := (with_shake E).
Notation D := (Nat.log2_up n).
Notation nn := (node_count n).
Notation s := (digestSizeBytes P).
Hypothesis Hs0 : 0 < s <= 64.
Hypothesis Hsalt : saltSizeBytes P <= 64.
Hypothesis Hn : 2 <= n.
Hypothesis HB : D < 30.
Variables (st : state) (q : nat -> ptr) (leaves : list bytes) (salt : bytes).
Hypothesis HM : merkle_call P n st q leaves salt.
Notation vl := (tree_layout n s q).

Lemma run_merkle t0 T (Q : state -> Prop) : createTree n s = Ok t0 -> buildMerkleTree Es P t0 (map (@Some bytes) leaves) salt = Ok T ->
  (forall z c, pv z = pv st -> nx z = nx st -> heap (nx st) (mm st) vl (nx st) (mm z) c -> trel n D c T -> Q z) -> runs U (c_buildMerkleTree P n) st Q.
Proof.
  intros M0 M HQ. pose proof (createTree_ok n D Hn eq_refl HB s) as K0. rewrite M0 in K0. cbn [ok] in K0. destruct K0 as [H0 _].
  pose proof (mk_tree _ _ _ _ _ _ HM) as HN. destruct (mk_salt _ _ _ _ _ _ HM) as (qs & E4 & R4 & L4). destruct (mk_rc _ _ _ _ _ _ HM) as (qr & E0 & R0 & A0).
  assert (Hnn : n <= nN n D) by (unfold nN; lia).
  assert (G1 : cnt vl = nN n D + 2) by reflexivity.
  assert (G2 : forall k, k < nN n D -> sz vl k = s) by (intros k Hk; apply part_node, Hk).
  assert (G3 : sz vl (nN n D) = nN n D) by (apply (part_rest n s nn); lia).
  assert (G4 : sz vl (nN n D + 1) = nN n D) by (apply (part_rest n s (nn + 1)); lia).
  assert (G6 : forall k, k < nN n D -> nth_error (pv st 9) k = Some (reg vl k)) by (intros k Hk; apply (nt_nodes _ _ _ _ HN), Hk).
  assert (G7 : pv st 10 = [reg vl (nN n D)]) by exact (nt_have _ _ _ _ HN).
  assert (G8 : pv st 11 = [reg vl (nN n D + 1)]) by exact (nt_exists _ _ _ _ HN).
  assert (G9 : forall i d, nth_error leaves i = Some d -> s <= length d /\ bytes_ok d /\ exists p, nth_error (pv st 3) i = Some p /\ ro (nx st) (mm st) vl p d).
  { intros i d Ei. destruct (mk_leaves _ _ _ _ _ _ HM i d Ei) as (A & p & B & R). split; [exact A|]. split; [apply R|]. exists p. split; [exact B|exact (tree_ro n s st q _ _ R)]. }
  pose proof (tree_ro n s st q _ _ R0) as R0'. pose proof (tree_ro n s st q _ _ R4) as R4'.
  assert (B4 : bytes_ok salt) by apply R4. assert (Sal : short salt) by (unfold short; lia). assert (L4' : saltSizeBytes P <= length salt) by lia.
  unfold buildMerkleTree in M. rewrite (sh_n _ _ _ _ H0) in M. change (for_loop n 0 _ t0) with (for_loop n 0 (leaf_step leaves) t0) in M.
  destruct (for_loop n 0 (leaf_step leaves) t0) as [t1| | |] eqn:M1; cbn [bind] in M; try discriminate.
  unfold c_buildMerkleTree. rewrite (num_nodes_eq n D Hn eq_refl HB). apply runs_seq. apply (run_create U n s Hn HB st q HN t0 _ M0 H0). intros z c X T0.
  apply runs_seq. eapply (run_leaves (nx st) (mm st) U vl (nx st) (pv st) P n D) with (t := t0) (t' := t1); try eassumption; [exact (mk_count _ _ _ _ _ _ HM)|lia|].
  intros z1 c1 X1 T1 H1. rewrite (sh_N _ _ _ _ H1) in M.
  eapply (run_parents (nx st) (mm st) U HU vl (nx st) (pv st) E P n D) with (t := t1) (t' := T); try eassumption.
  intros z2 c2 (A2 & B2 & H2) T2 _. apply (HQ z2 c2 A2 B2 H2 T2).
Qed.
End T.

Definition digest_sizes_b (P : paramset) : bool := (1 <=? digestSizeBytes P) && (digestSizeBytes P <=? 64) && (saltSizeBytes P <=? 64).
Lemma digest_sizes p P : get_param_set p = Some P -> 0 < digestSizeBytes P <= 64 /\ saltSizeBytes P <= 64.
Proof.
  intros H. assert (B : digest_sizes_b P = true) by (revert p P H; apply (params_forall (fun _ P => digest_sizes_b P)); vm_compute; reflexivity).
  unfold digest_sizes_b in B. lia.
Qed.

Lemma merkle_full U p P n st q leaves salt :
  locals_ok U -> get_param_set p = Some P -> 2 <= n -> Nat.log2_up n < 30 -> merkle_call P n st q leaves salt ->
  exists st' t v, run U (c_buildMerkleTree P n) st = Some (st', t) /\ nx st' = nx st /\ chg (nx st) (mm st) (mm st') (tree_parts n (digestSizeBytes P) q) /\
    merkle_values P n leaves salt v /\ (forall x, x < node_count n -> holds st' (q x) (v x)) /\
    (exists b, holds st' (q (node_count n)) b /\ marks_nodes n b) /\ (exists b, holds st' (q (node_count n + 1)) b /\ marks_nodes n b) /\
    pv st' = pv st /\ (forall x, x < node_count n -> length (v x) = digestSizeBytes P) /\ exists c, heap (nx st) (mm st) (tree_layout n (digestSizeBytes P) q) (nx st) (mm st') c.
Proof.
  intros HU HP Hn HB HM. destruct (digest_sizes p P HP) as [Hs Hsalt]. set (D := Nat.log2_up n) in *. pose proof (shake_env toy_env toy_env_bytes) as HEs.
  destruct (mk_salt _ _ _ _ _ _ HM) as (_ & _ & _ & L4). pose proof (mk_count _ _ _ _ _ _ HM) as HL.
  pose proof (createTree_ok n D Hn eq_refl HB (digestSizeBytes P)) as K0. apply ok_ex in K0. destruct K0 as (t0 & M0 & H0 & Hz0 & Hh0).
  assert (HLl : forall x, In x leaves -> digestSizeBytes P <= length x).
  { intros x Hx. apply In_nth_error in Hx. destruct Hx as [i Hx]. apply (mk_leaves _ _ _ _ _ _ HM i x Hx). }
  pose proof (buildMerkleTree_ok (with_shake toy_env) P HEs n D Hn (D_bound n D Hn eq_refl HB) salt ltac:(lia) t0 leaves H0 Hh0 Hz0 HL HLl) as HT. apply ok_ex in HT. destruct HT as (T & M & HT).
  assert (R : runs U (c_buildMerkleTree P n) st (fun z => pv z = pv st /\ nx z = nx st /\ exists c, heap (nx st) (mm st) (tree_layout n (digestSizeBytes P) q) (nx st) (mm z) c /\ trel n D c T)).
  { apply (run_merkle U HU toy_env P n Hs Hsalt Hn HB st q leaves salt HM t0 T _ M0 M). intros z c A' A H T1. split; [exact A'|]. split; [exact A|]. exists c. split; assumption. }
  unfold runs in R. destruct (run U (c_buildMerkleTree P n) st) as [[z t]|]; [|destruct R]. destruct R as (A' & A & c & H & T1 & T2 & T3).
  exists z, t, (nd T). split; [reflexivity|]. split; [exact A|]. split; [exact (heap_chg _ _ _ _ _ _ H)|].
  assert (G : forall k, k < node_count n + 2 -> holds z (q k) (c k)).
  { intros k Hk. split; [rewrite A; exact (heap_pts _ _ _ _ _ _ H k Hk)|exact (heap_ok _ _ _ _ _ _ H k Hk)]. }
  change (nN n D) with (node_count n) in *. destruct HT as (Sh & Hv & Hleaf & Hzero & Hhash). pose proof (pow_pos D) as PD.
  split; [split|split; [|split; [|split; [|split; [exact A'|split; [|exists c; exact H]]]]]].
  - intros l d Hl. assert (l < n) by (rewrite <- HL; apply nth_error_Some; congruence).
    replace (node_count n - n + l) with (nF D + l) by (unfold node_count, nF; fold D; lia). rewrite Hleaf by assumption. rewrite (nth_error_nth _ _ _ Hl). reflexivity.
  - intros x Hx Hno. apply Hzero; [exact Hx|]. destruct (ext n D x) eqn:Ex; [elim Hno; apply (above_ext n x Hn); exact Ex|reflexivity].
  - intros x Hx Ha. apply (above_ext n x Hn) in Ha. fold D in Ha. rewrite Hhash at 1 by (try exact Ha; unfold node_count in Hx; fold D in Hx; lia).
    unfold mhash, hash, mright. change (nN n D) with (node_count n). cbn [prefix_bytes concat app]. rewrite app_nil_r, (firstn_all2 salt) by lia. reflexivity.
  - intros x Hx. rewrite <- (T1 x Hx). apply G. lia.
  - exists (c (node_count n)). split; [apply G; lia|]. rewrite T2. apply marks_of; [exact Hn|apply (sh_have _ _ _ _ Sh)|]. intros x _. apply Hv.
  - exists (c (node_count n + 1)). split; [apply G; lia|]. rewrite T3. apply marks_of; [exact Hn|apply (sh_exl _ _ _ _ Sh)|]. intros x Hx. rewrite (sh_ex _ _ _ _ Sh x Hx). symmetry. apply (ext_spec n D); [exact Hn|exact (D_bound n _ Hn eq_refl HB)|exact Hx].
  - intros x Hx. rewrite <- (T1 x Hx), (heap_len _ _ _ _ _ _ H x) by (cbn; lia). apply (part_node n (digestSizeBytes P)), Hx.
Qed.

Theorem merkle_code U p P n st q leaves salt :
  locals_ok U -> get_param_set p = Some P -> 2 <= n -> Nat.log2_up n < 30 -> merkle_call P n st q leaves salt ->
  exists st' t v, run U (c_buildMerkleTree P n) st = Some (st', t) /\ nx st' = nx st /\ chg (nx st) (mm st) (mm st') (tree_parts n (digestSizeBytes P) q) /\
    merkle_values P n leaves salt v /\ (forall x, x < node_count n -> holds st' (q x) (v x)) /\
    (exists b, holds st' (q (node_count n)) b /\ marks_nodes n b) /\ (exists b, holds st' (q (node_count n + 1)) b /\ marks_nodes n b).
Proof.
  intros HU HP Hn HB HM. destruct (merkle_full U p P n st q leaves salt HU HP Hn HB HM) as (z & t & v & A & B & C & D & F & G & H & _).
  exists z, t, v. repeat (split; [assumption|]). assumption.
Qed.

(** A memory with the leaves, the salt and the round constants beside the tree. *)
Definition merkle_state (P : paramset) (n : nat) (leaves : list bytes) (salt : bytes) : state :=
  mkState (fun _ => 0) (fun _ => 0%N)
    (args [] [[(4, 0)]; []; []; map (fun i => (5 + i, 0)) (seq 0 n); [(3, 0)]; []; []; []; []; map (tree_place n (digestSizeBytes P)) (seq 0 (node_count n)); [(1, 0)]; [(2, 0)]])
    (tree_memory n (digestSizeBytes P) ([salt; round_constant_bytes] ++ leaves)) (5 + n) 0.
Lemma merkle_called P n leaves salt : 0 < digestSizeBytes P -> length leaves = n -> Forall bytes_ok leaves -> (forall x, In x leaves -> digestSizeBytes P <= length x) ->
  bytes_ok salt -> length salt = saltSizeBytes P -> merkle_call P n (merkle_state P n leaves salt) (tree_place n (digestSizeBytes P)) leaves salt.
Proof.
  intros Hs HL BL LL B4 L4. destruct (new_tree_in n (digestSizeBytes P) (merkle_state P n leaves salt) ([salt; round_constant_bytes] ++ leaves) Hs eq_refl ltac:(cbn; lia) eq_refl eq_refl eq_refl) as [Nt Out].
  split; [exact Nt|exact HL|..].
  - intros i d Hi. assert (i < n) by (rewrite <- HL; apply nth_error_Some; congruence). split; [apply LL, nth_error_In with i, Hi|]. exists (5 + i, 0).
    split; [change (pv (merkle_state P n leaves salt) 3) with (map (fun i => (5 + i, 0)) (seq 0 n)); rewrite nth_error_map, nth_error_nth' with (d := 0) by (rewrite seq_length; lia); rewrite seq_nth by lia; reflexivity|].
    split; [apply pts_block; [cbn; lia|]|].
    + change (mm (merkle_state P n leaves salt) (5 + i)) with (nth i leaves []). apply nth_error_nth, Hi.
    + split; [|apply Out; lia]. rewrite Forall_forall in BL. apply BL, nth_error_In with i, Hi.
  - exists (3, 0). split; [reflexivity|]. split; [|exact L4]. split; [apply pts_block; [cbn; lia|reflexivity]|]. split; [exact B4|apply Out; lia].
  - exists (4, 0). split; [reflexivity|]. split; [|reflexivity]. split; [apply pts_block; [cbn; lia|reflexivity]|]. split; [|apply Out; lia]. apply Forall_forall. intros x Hx. revert x Hx. apply Forall_forall. repeat constructor.
Qed.
