(** The opening of a Merkle tree on memory. *)

From Coq Require Import List NArith Arith Bool Lia ZifyBool ZifyNat ZifyN.
From Verif Require Import Base Params Env Spec MiniC CodeLowMC CodeSpec HashSpec CodeKeccakSpec CodeZkbSpec CodeHashUses Tree TreeSpec CodeTree CodeTreeSpec
  BaseFacts ParamFacts HashProofs MiniCFacts CodeRules CodeLowMCProofs CodeHeap CodeP3Lin CodeSignRules TreeShape TreeSeed TreeReveal TreeOpen TreeTop CodeTreeProofs
  CodeWitness CodeTreeThm CodeMerkle CodeMerkleSpec CodeMerkleProofs CodeVerifyTree CodeVerifyTreeSpec CodeVerifyTreeProofs CodeReconstructProofs CodeOpening CodeOpeningSpec.
Import ListNotations.

Lemma opened_in s nodes : forall input j, NoDup nodes -> j < length nodes -> opened s nodes input (nth j nodes 0) = firstn s (skipn (j * s) input).
Proof.
  induction nodes as [|r nodes IH]; intros input j Hd Hj; [cbn in Hj; lia|]. inversion Hd as [|? ? Hr Hd']; subst. destruct j as [|j]; cbn [nth opened].
  - rewrite Nat.eqb_refl. reflexivity.
  - cbn [length] in Hj. destruct (Nat.eqb_spec r (nth j nodes 0)) as [Eq|_]; [elim Hr; rewrite Eq; apply nth_In; lia|].
    rewrite (IH _ j Hd' ltac:(lia)). change (S j * s) with (s + j * s). rewrite CodeLowMCProofs.skipn_add. reflexivity.
Qed.
Lemma opened_out s nodes : forall input x, ~ In x nodes -> opened s nodes input x = zeros s.
Proof.
  induction nodes as [|r nodes IH]; intros input x Hx; [reflexivity|]. cbn [opened]. destruct (Nat.eqb_spec r x) as [->|_]; [elim Hx; left; reflexivity|].
  apply IH. intros H. apply Hx. right. exact H.
Qed.

Section G.
Variables (U : nat -> nat -> bytes) (P : paramset) (n : nat).
Notation D := (Nat.log2_up n).
Notation nn := (node_count n).
Notation s := (digestSizeBytes P).
Hypothesis Hs0 : 0 < s.
Hypothesis Hn : 2 <= n.
Hypothesis HB : D < 30.
Variables (st : state) (q : nat -> ptr) (input : bytes) (qi : ptr).
Hypothesis HN : new_tree n s st q.
Hypothesis E6 : pv st 6 = [qi].
Hypothesis R6 : reads st (tree_parts n s q) qi input.
Let n0 := nx st.
Let m0 := mm st.
Notation vl := (tree_layout n s q).

Definition added (t : tree) (rv : list nat) (k : nat) : res (option tree) :=
  bind (put_revealed s t rv input (k * s) (length input - k * s)) (fun r =>
    match r with None => Ok None | Some (t, rest) => if rest =? 0 then Ok (Some t) else Ok None end).

Lemma run_add rv : forall k c z t o (Q : state -> Prop), at_st n0 m0 vl n0 (pv st) c z -> trel n D c t -> shape n D s t ->
  Forall (fun r => r < nn) rv -> k * s <= length input -> added t rv k = Ok o ->
  (forall z' c', at_st n0 m0 vl n0 (pv st) c' z' -> iv z' 5 = match o with Some _ => 0 | None => 1 end ->
     (forall T, o = Some T -> trel n D c' T /\ shape n D s T) -> Q z') ->
  runs U (c_add_nodes P (length input) k rv) z Q.
Proof.
  induction rv as [|r rv IH]; intros k c z t o Q X T H F Hk M HQ; unfold added in M; cbn [put_revealed bind] in M; cbn [c_add_nodes].
  - eapply runs_if; [cbn [ceval ieval]; reflexivity|]. destruct (Nat.eqb_spec (length input) (k * s)) as [L|L].
    + assert (C : length input - k * s =? 0 = true) by (apply Nat.eqb_eq; lia). rewrite C in M. injection M as <-.
      apply runs_iset. apply (HQ _ c); [exact X|cbn [set_iv iv]; apply upd_eq|]. intros T2 [= <-]. split; assumption.
    + assert (C : length input - k * s =? 0 = false) by (apply Nat.eqb_neq; lia). rewrite C in M. injection M as <-.
      apply runs_iset. apply (HQ _ c); [exact X|cbn [set_iv iv]; apply upd_eq|discriminate].
  - inversion F as [|? ? Fr Fv]; subst.
    eapply runs_if; [cbn [ceval ieval]; reflexivity|]. destruct (Nat.ltb_spec (length input) (k * s + s)) as [L|L].
    + assert (C : length input - k * s <? s = true) by (apply Nat.ltb_lt; lia). rewrite C in M. cbn [bind] in M. injection M as <-.
      apply runs_iset. apply (HQ _ c); [exact X|cbn [set_iv iv]; apply upd_eq|discriminate].
    + assert (C : length input - k * s <? s = false) by (apply Nat.ltb_ge; lia). rewrite C in M. rewrite slice_ok in M by lia. cbn [bind] in M.
      set (d := firstn s (skipn (k * s) input)) in *. assert (Ld : length d = s) by (unfold d; rewrite firstn_length, skipn_length; lia).
      pose proof (tree_ro n s st q _ _ R6) as R6'.
      assert (Ri : ro n0 m0 vl (fst qi, snd qi + k * s) (skipn (k * s) input)).
      { destruct R6' as [A B]. split.
        - pose proof (pts_sub _ _ _ _ (k * s) (length input - k * s) A ltac:(lia)) as K. rewrite firstn_all2 in K by (rewrite skipn_length; lia). exact K.
        - intros j Hj. specialize (B j Hj). rewrite skipn_length. unfold disj in *. cbn [fst snd]. lia. }
      pose proof X as (A & B & Hh0). pose proof (eq_ind_r (fun x => heap n0 m0 vl x (mm z) _) Hh0 B) as Hh. cbn beta in Hh.
      assert (Hc : CodeHeap.cnt vl = nn + 2) by reflexivity.
      apply runs_seq. apply (h_memcpy_part n0 m0 U vl _ _ _ z c r (fst qi, snd qi + k * s) (skipn (k * s) input)); cbn [ieval].
      * cbn [peval ieval]. rewrite A. apply (nt_nodes _ _ _ _ HN). exact Fr.
      * cbn [peval P0 ieval]. rewrite A, E6. cbn [nth_error]. rewrite (surjective_pairing qi) at 1. reflexivity.
      * lia.
      * intros Heq. destruct Ri as [_ Dj]. specialize (Dj r ltac:(lia)). cbn [tree_layout reg sz] in Dj, Heq. rewrite part_node in Dj by exact Fr. rewrite <- Heq in Dj.
        unfold disj in Dj. rewrite skipn_length in Dj. cbn [fst snd] in Dj. lia.
      * left. exact Ri.
      * apply Forall_skipn. apply R6.
      * cbn [tree_layout sz]. rewrite part_node by exact Fr. lia.
      * rewrite skipn_length. lia.
      * lia.
      * exact Hh.
      * intros m1 H1. fold d in H1. rewrite CodeSignProofs.blit_list_all in H1 by (rewrite Ld, (heap_len _ _ _ _ _ _ Hh r) by lia; apply (part_node n s), Fr).
        pose proof (put_node_eq s n D t r d H Fr Ld) as Pe. rewrite Pe in M. cbn [bind] in M. set (t1 := set_node _ _ _) in *.
        assert (S1 : shape n D s t1) by (apply (put_shape s n D t r d t1 H Fr Ld); exact Pe).
        apply runs_seq. apply (g_set_have n0 m0 U vl n0 (pv st) nn ltac:(lia) (part_rest n s nn ltac:(lia)) (part_rest n s (nn + 1) ltac:(lia)) (nt_have _ _ _ _ HN) (cset c r d)); [|exact Fr|].
        { split; [exact A|]. split; [exact B|]. exact (eq_ind _ (fun x => heap n0 m0 vl x m1 _) H1 _ B). }
        intros z2 X2. rewrite cset_neq in X2 by lia. apply (IH (S k) _ z2 t1 o Q X2); [exact (trel_put s n D c t r d H Fr T)|exact S1|exact Fv|cbn [Nat.mul]; lia| |exact HQ].
        unfold added. replace (S k * s) with (k * s + s) by (cbn [Nat.mul]; lia). replace (length input - (k * s + s)) with (length input - k * s - s) by lia. exact M.
Qed.
End G.

Theorem opening_code U p P n st q nodes input leaves salt :
  locals_ok U -> get_param_set p = Some P -> 2 <= n -> Nat.log2_up n < 30 -> NoDup nodes -> (forall x, In x nodes -> above_leaf n x) ->
  opening_call P n st q input leaves salt ->
  let s := digestSizeBytes P in let known := fun x => existsb (Nat.eqb x) nodes in
  exists st' t, run U (c_check_opening P n (length input) nodes (supplied leaves)) st = Some (st', t) /\ nx st' = nx st /\ chg (nx st) (mm st) (mm st') (tree_parts n s q) /\
    (length input <> length nodes * s \/ (exists x, given_leaf n leaves x /\ In x nodes) -> iv st' 5 = 1) /\
    (length input = length nodes * s -> ~ (exists x, given_leaf n leaves x /\ In x nodes) -> exists v' known', completes P n leaves salt (opened s nodes input) known v' known' /\
       (forall x, x < node_count n -> CodeZkbSpec.holds st' (q x) (v' x)) /\ CodeZkbSpec.holds st' (q (node_count n)) (flags n known') /\ iv st' 5 = if known' 0 then 0 else 1).
Proof.
  intros HU HP Hn HB Hnd Hab HM s known. destruct (digest_sizes p P HP) as [Hs _]. fold s in Hs. set (D := Nat.log2_up n) in *.
  assert (HnD : n <= 2 ^ D) by (apply Nat.log2_up_spec; lia).
  pose proof (createTree_ok n D Hn eq_refl HB s) as H. apply ok_ex in H. destruct H as (t0 & He & Ht & _ & Hv).
  assert (Hlt : forall r, In r nodes -> r < nN n D) by (intros r Hr; apply (ext_lt n D), (above_ext n r Hn), Hab, Hr).
  assert (F : Forall (fun r => r < node_count n) nodes) by (apply Forall_forall; exact Hlt).
  destruct (oc_input _ _ _ _ _ _ _ HM) as (qi & E6 & R6). pose proof (oc_tree _ _ _ _ _ _ _ HM) as HN.
  assert (Kn : forall x, known x = true <-> In x nodes).
  { intros x. unfold known. rewrite existsb_exists. split; [intros (y & Hy & Ey); apply Nat.eqb_eq in Ey; subst; exact Hy|intros Hx; exists x; split; [exact Hx|apply Nat.eqb_refl]]. }
  (* the outcome of adding the nodes *)
  assert (Ad : exists o, added P input t0 nodes 0 = Ok o /\ match o with None => length input <> length nodes * s | Some T => length input = length nodes * s /\
    shape n D s T /\ (forall x, hv T x = known x) /\ (forall x, x < node_count n -> nd T x = opened s nodes input x) end).
  { unfold added. fold s. rewrite Nat.mul_0_l, Nat.sub_0_r. destruct (Nat.lt_ge_cases (length input) (length nodes * s)) as [L|L].
    - pose proof (put_revealed_short n D s nodes t0 input 0 Ht Hlt ltac:(lia) ltac:(lia)) as K. rewrite Nat.sub_0_r in K. rewrite K. exists None. split; [reflexivity|lia].
    - destruct (put_revealed_ok n D s nodes t0 input 0 Ht Hnd Hlt ltac:(lia)) as (T & K & Sh & Hh & Hno & Hj). rewrite Nat.sub_0_r in K. rewrite K. cbn [bind].
      destruct (Nat.eqb_spec (length input - length nodes * s) 0) as [Z|Z]; [|exists None; split; [reflexivity|lia]].
      exists (Some T). split; [reflexivity|]. split; [lia|]. split; [exact Sh|]. split.
      + intros x. rewrite Hh, Hv. reflexivity.
      + intros x Hx. destruct (in_dec Nat.eq_dec x nodes) as [I|I].
        * destruct (In_nth _ _ 0 I) as (j & Hjl & <-). rewrite Hj, opened_in by auto. reflexivity.
        * rewrite Hno, opened_out by exact I. destruct (createTree_inv _ _ _ He) as (ex & _ & _ & _ & _ & N1 & _). unfold nd. rewrite N1.
          rewrite (num_nodes_eq n D Hn eq_refl HB). change (nN n D) with (node_count n). apply nth_repeat_lt || (rewrite (nth_indep _ [] (zeros s)) by (rewrite repeat_length; exact Hx); apply nth_repeat). }
  destruct Ad as (o & Mo & Ho).
  set (L := tree_layout n s q).
  assert (R : runs U (c_check_opening P n (length input) nodes (supplied leaves)) st (fun z => nx z = nx st /\ chg (nx st) (mm st) (mm z) (tree_parts n s q) /\
    (length input <> length nodes * s \/ (exists x, given_leaf n leaves x /\ In x nodes) -> iv z 5 = 1) /\
    (length input = length nodes * s -> ~ (exists x, given_leaf n leaves x /\ In x nodes) -> exists v' known', completes P n leaves salt (opened s nodes input) known v' known' /\
       (forall x, x < node_count n -> CodeZkbSpec.holds z (q x) (v' x)) /\ CodeZkbSpec.holds z (q (node_count n)) (flags n known') /\ iv z 5 = if known' 0 then 0 else 1))).
  { unfold c_check_opening. apply runs_seq. apply (run_create U n s Hn HB st q HN t0 _ He Ht). intros z0 c0 X0 T0.
    apply runs_seq. unfold c_addMerkleNodes. apply (run_add U P n (proj1 Hs) Hn HB st q input qi HN E6 R6 nodes 0 c0 z0 t0 o _ X0 T0 Ht F ltac:(lia) Mo).
    intros z c (A & B & Hh) I5 K. pose proof (heap_chg _ _ _ _ _ _ Hh) as Ch. eapply runs_if; [cbn [ceval ieval]; reflexivity|]. rewrite I5. destruct o as [T|].
    2:{ cbn [Nat.eqb]. apply runs_skip. split; [exact B|]. split; [exact Ch|]. split; [intros _; exact I5|]. intros Eq. elim (Ho Eq). }
    destruct Ho as (El & Sh & HvT & HnT). destruct (K T eq_refl) as [(T1 & T2 & T3) _]. cbn [Nat.eqb]. change (nN n (Nat.log2_up n)) with (node_count n) in *.
    assert (Np : forall k, k < node_count n + 2 -> CodeZkbSpec.holds z (q k) (c k)).
    { intros k Hk. split; [rewrite B; exact (heap_pts _ _ _ _ _ _ Hh k Hk)|exact (heap_ok _ _ _ _ _ _ Hh k Hk)]. }
    assert (Rd : forall p0 l, reads st (tree_parts n s q) p0 l -> reads z (tree_parts n s q) p0 l).
    { intros p0 l Hr. split; [rewrite B; exact (heap_ro _ _ _ _ _ _ _ _ Hh (tree_ro n s st q _ _ Hr))|apply Hr]. }
    assert (Fl : c (node_count n) = flags n known).
    { rewrite T2. unfold flags. transitivity (map flag (map known (seq 0 (node_count n)))); [|rewrite map_map; reflexivity]. f_equal.
      apply (nth_ext _ _ false false); [rewrite map_length, seq_length; exact (sh_have _ _ _ _ Sh)|]. intros x Hx. rewrite (sh_have _ _ _ _ Sh) in Hx. change (nN n D) with (node_count n) in Hx.
      rewrite (nth_indep (map known _) false (known 0)) by (rewrite map_length, seq_length; exact Hx). rewrite map_nth, seq_nth by exact Hx. exact (HvT x). }
    assert (CK : check_call P n z q (opened s nodes input) known leaves salt).
    { split.
      - exact (nt_apart _ _ _ _ HN).
      - intros x Hx. rewrite <- (HnT x Hx), <- (T1 x Hx). split; [apply Np; lia|]. rewrite (heap_len _ _ _ _ _ _ Hh x) by (cbn; lia). apply (part_node n s), Hx.
      - rewrite <- Fl. apply Np. lia.
      - intros x _ Hx. apply Hab, Kn, Hx.
      - exists (map flag (t_exists T)). split; [rewrite <- T3; apply Np; lia|]. apply marks_of; [exact Hn|exact (sh_exl _ _ _ _ Sh)|]. intros k Hk. rewrite (sh_ex _ _ _ _ Sh k Hk). symmetry. apply (ext_spec n D); [exact Hn|exact (D_bound n _ Hn eq_refl HB)|exact Hk].
      - rewrite A. exact (nt_nodes _ _ _ _ HN).
      - rewrite A. exact (nt_have _ _ _ _ HN).
      - rewrite A. exact (nt_exists _ _ _ _ HN).
      - exact (oc_count _ _ _ _ _ _ _ HM).
      - intros i d Ei. destruct (oc_leaves _ _ _ _ _ _ _ HM i d Ei) as (Ld & p0 & Ep & Rp). split; [exact Ld|]. exists p0. rewrite A. split; [exact Ep|apply Rd, Rp].
      - destruct (oc_salt _ _ _ _ _ _ _ HM) as (p0 & Ep & Rp & L4). exists p0. rewrite A. split; [exact Ep|]. split; [apply Rd, Rp|exact L4].
      - destruct (oc_rc _ _ _ _ _ _ _ HM) as (p0 & Ep & Rp & A0). exists p0. rewrite A. split; [exact Ep|]. split; [apply Rd, Rp|exact A0]. }
    destruct (check_code U p P n z q _ known leaves salt HU HP Hn HB CK) as (z' & t & Rz & B' & Ch' & C1 & C2). unfold runs. rewrite Rz.
    assert (Gx : (exists x, given_leaf n leaves x /\ In x nodes) <-> (exists x, given_leaf n leaves x /\ known x = true)).
    { split; intros (x & G1 & G2); exists x; (split; [exact G1|apply Kn, G2]). }
    split; [congruence|]. split.
    { apply (chg_trans _ _ (mm z) _ (tree_parts n s q) (tree_parts n s q)); auto. rewrite B in Ch'. exact Ch'. }
    split; [intros [Ne|G]; [elim (Ne El)|apply C1, Gx, G]|]. intros _ Ng. apply C2. intros G. apply Ng, Gx, G. }
  unfold runs in R. destruct (run U _ st) as [[z t]|]; [|destruct R]. exists z, t. split; [reflexivity|exact R].
Qed.

(** A memory in which it is called. *)
Definition opening_state (P : paramset) (n : nat) (input : bytes) (leaves : list (option bytes)) (salt : bytes) : state :=
  mkState (fun _ => 0) (fun _ => 0%N)
    (args [] [[(4, 0)]; []; []; map (fun i => (6 + i, 0)) (seq 0 n); [(3, 0)]; []; [(5, 0)]; []; []; map (tree_place n (digestSizeBytes P)) (seq 0 (node_count n)); [(1, 0)]; [(2, 0)]])
    (tree_memory n (digestSizeBytes P) ([salt; round_constant_bytes; input] ++ map data_of leaves)) (6 + n) 0.
Lemma opening_called P n input leaves salt : 0 < digestSizeBytes P -> length leaves = n -> bytes_ok input ->
  (forall d, In (Some d) leaves -> bytes_ok d /\ digestSizeBytes P <= length d) -> bytes_ok salt -> length salt = saltSizeBytes P ->
  opening_call P n (opening_state P n input leaves salt) (tree_place n (digestSizeBytes P)) input leaves salt.
Proof.
  intros Hs HL B6 LL B4 L4. set (z := opening_state P n input leaves salt).
  destruct (new_tree_in n (digestSizeBytes P) z ([salt; round_constant_bytes; input] ++ map data_of leaves) Hs eq_refl ltac:(cbn; lia) eq_refl eq_refl eq_refl) as [Nt Out].
  split.
  - exact Nt.
  - exists (5, 0). split; [reflexivity|]. split; [apply pts_block; [cbn; lia|reflexivity]|]. split; [exact B6|apply Out; lia].
  - exact HL.
  - intros i d Hi. assert (i < n) by (rewrite <- HL; apply nth_error_Some; congruence). destruct (LL d (nth_error_In _ _ Hi)) as [Bd Ld]. split; [exact Ld|]. exists (6 + i, 0).
    split; [change (pv z 3) with (map (fun i => (6 + i, 0)) (seq 0 n)); rewrite nth_error_map, nth_error_nth' with (d := 0) by (rewrite seq_length; lia); rewrite seq_nth by lia; reflexivity|].
    split; [apply pts_block; [cbn; lia|]|].
    + change (mm z (6 + i)) with (nth i (map data_of leaves) []). apply nth_error_nth. rewrite nth_error_map, Hi. reflexivity.
    + split; [exact Bd|apply Out; lia].
  - exists (3, 0). split; [reflexivity|]. split; [|exact L4]. split; [apply pts_block; [cbn; lia|reflexivity]|]. split; [exact B4|apply Out; lia].
  - exists (4, 0). split; [reflexivity|]. split; [|reflexivity]. split; [apply pts_block; [cbn; lia|reflexivity]|]. split; [|apply Out; lia]. apply Forall_forall. intros x Hx. revert x Hx. apply Forall_forall. repeat constructor.
Qed.
