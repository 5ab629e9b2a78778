(** generateSeeds on memory against the derivation of the seeds, and a memory in which it is called. *)

From Coq Require Import List NArith Arith Bool Lia ZifyBool ZifyNat ZifyN.
From Verif Require Import Base Params Env Spec MiniC CodeLowMC CodeSpec HashSpec CodeKeccakSpec CodeZkbSpec CodeHashUses Tree TreeSpec CodeTree CodeTreeSpec
  BaseFacts ParamFacts HashProofs MiniCFacts CodeRules CodeLowMCProofs CodeHeap CodeP3Lin CodeSignRules TreeShape TreeSeed TreeOpen TreeTop CodeTreeProofs CodeWitness.
Import ListNotations.

Definition seed_sizes_b (P : paramset) : bool := (1 <=? seedSizeBytes P) && (seedSizeBytes P <=? 32) && (saltSizeBytes P <=? 64).
Lemma seed_sizes p P : get_param_set p = Some P -> 0 < seedSizeBytes P <= 32 /\ saltSizeBytes P <= 64.
Proof.
  intros H. assert (B : seed_sizes_b P = true) by (revert p P H; apply (params_forall (fun _ P => seed_sizes_b P)); vm_compute; reflexivity).
  unfold seed_sizes_b in B. lia.
Qed.

Lemma above_ext n x : 2 <= n -> above_leaf n x <-> ext n (Nat.log2_up n) x = true.
Proof.
  intros Hn. set (D := Nat.log2_up n). assert (HnD : n <= 2 ^ D) by (apply Nat.log2_up_spec; lia). pose proof (pow_pos D) as PD. split.
  - intros (l & k & Hl & E). fold D in E. assert (Hk : k <= D).
    { destruct (Nat.le_gt_cases k D); auto. exfalso. assert (2 ^ S D <= 2 ^ k) by (apply Nat.pow_le_mono_r; lia). rewrite pow_S in *. rewrite Nat.div_small in E by lia. lia. }
    assert (X : exh n D (x + 1) = true) by (rewrite <- E; apply exh_anc; auto; lia).
    assert (Lx : x + 1 < 2 * 2 ^ D).
    { rewrite <- E. apply Nat.div_lt_upper_bound; [pose proof (pow_pos k); lia|]. pose proof (pow_pos k). nia. }
    unfold ext. rewrite X. pose proof (exh_lt n D Hn HnD (x + 1) ltac:(lia) Lx X). unfold nN. lia.
  - intros X. pose proof (ext_lt n D x X) as Lx. unfold nN in Lx. unfold ext in X. apply andb_true_iff in X. destruct X as [_ X].
    destruct (exh_leaf_below n D Hn HnD (x + 1) ltac:(lia) ltac:(lia) X) as (k & _ & _ & R & E). exists ((x + 1) * 2 ^ k - 2 ^ D), k. fold D. split; [lia|].
    replace (2 ^ D + ((x + 1) * 2 ^ k - 2 ^ D)) with ((x + 1) * 2 ^ k) by lia. exact E.
Qed.

Lemma marks_of n l : 2 <= n -> length l = node_count n -> (forall x, x < node_count n -> nth x l false = ext n (Nat.log2_up n) x) -> marks_nodes n (map flag l).
Proof.
  intros Hn Hl H. split; [rewrite map_length; exact Hl|]. intros x Hx. rewrite nth_flag, H by exact Hx. pose proof (above_ext n x Hn) as [A B]. split; intros K.
  - rewrite (A K). reflexivity.
  - destruct (ext n (Nat.log2_up n) x); [elim K; apply B; reflexivity|reflexivity].
Qed.

Theorem seeds_code U E p P n rep st q root salt :
  locals_ok U -> env_bytes_ok E -> get_param_set p = Some P -> 2 <= n -> Nat.log2_up n < 30 -> seeds_call P n st q root salt ->
  exists st' t, run U (c_generateSeeds P n rep) st = Some (st', t) /\ nx st' = nx st /\ chg (nx st) (mm st) (mm st') (tree_parts n (seedSizeBytes P) q) /\
    (forall path, let x := seed_of (with_shake E) P root salt rep path in above_leaf n (fst x) -> holds st' (q (fst x)) (snd x)) /\
    (forall l, l < n -> exists path, let x := seed_of (with_shake E) P root salt rep path in fst x = node_count n - n + l /\ holds st' (q (node_count n - n + l)) (snd x)) /\
    (exists b, holds st' (q (node_count n)) b /\ marks_nodes n b) /\ (exists b, holds st' (q (node_count n + 1)) b /\ marks_nodes n b).
Proof.
  intros HU HE HP Hn HB HM. destruct (seed_sizes p P HP) as [Hs Hsalt]. pose proof (shake_env E HE) as HEs.
  destruct (sd_root _ _ _ _ _ _ HM) as (_ & _ & _ & L3). destruct (sd_salt _ _ _ _ _ _ HM) as (_ & _ & _ & L4).
  pose proof (generateSeeds_ok (with_shake E) P HEs Hs n (Nat.log2_up n) Hn eq_refl HB salt rep ltac:(lia) root L3) as HT. apply ok_ex in HT. destruct HT as (T & M & HT).
  assert (R : runs U (c_generateSeeds P n rep) st (fun z => nx z = nx st /\ exists c, heap (nx st) (mm st) (mkLayout (node_count n + 2) q (tree_part n (seedSizeBytes P))) (nx st) (mm z) c /\ trel n (Nat.log2_up n) c T)).
  { apply (run_seeds U HU E P n Hs Hsalt Hn HB st q root salt rep HM T _ M). intros z c _ A H T1 _. split; [exact A|]. exists c. split; assumption. }
  unfold runs in R. destruct (run U (c_generateSeeds P n rep) st) as [[z t]|]; [|destruct R]. destruct R as (A & c & H & T1 & T2 & T3).
  exists z, t. split; [reflexivity|]. split; [exact A|]. split; [exact (heap_chg _ _ _ _ _ _ H)|].
  assert (G : forall k, k < node_count n + 2 -> holds z (q k) (c k)).
  { intros k Hk. split; [rewrite A; exact (heap_pts _ _ _ _ _ _ H k Hk)|exact (heap_ok _ _ _ _ _ _ H k Hk)]. }
  change (nN n (Nat.log2_up n)) with (node_count n) in *. pose proof HT as (Sh & Hv & _).
  assert (N : forall path, let x := seed_of (with_shake E) P root salt rep path in above_leaf n (fst x) -> holds z (q (fst x)) (snd x)).
  { intros path x Hx. apply (above_ext n _ Hn) in Hx. pose proof (ext_lt n _ _ Hx) as Lx. change (nN n (Nat.log2_up n)) with (node_count n) in Lx.
    pose proof (seed_of_nd (with_shake E) P n (Nat.log2_up n) salt rep root T HEs Hn (D_bound n _ Hn eq_refl HB) HT path Hx) as K. fold x in K. rewrite <- K, <- (T1 _ Lx). apply G. lia. }
  split; [exact N|]. split; [|split].
  - intros l Hl. destruct (seed_of_path (with_shake E) P root salt rep (node_count n - n + l)) as (path & Hp). exists path. intros x.
    assert (AL : above_leaf n (node_count n - n + l)).
    { exists l, 0. split; [exact Hl|]. rewrite Nat.div_1_r. unfold node_count. pose proof (pow_pos (Nat.log2_up n)). lia. }
    split; [exact Hp|]. rewrite <- Hp. apply N. exact (eq_ind_r (above_leaf n) AL Hp).
  - exists (map flag (t_haveNode T)). split; [rewrite <- T2; apply G; lia|]. apply marks_of; [exact Hn|exact (sh_have _ _ _ _ Sh)|]. intros k _. exact (Hv k).
  - exists (map flag (t_exists T)). split; [rewrite <- T3; apply G; lia|]. apply marks_of; [exact Hn|exact (sh_exl _ _ _ _ Sh)|]. intros k Hk. rewrite (sh_ex _ _ _ _ Sh k Hk). symmetry. apply (ext_spec n (Nat.log2_up n)); [exact Hn|exact (D_bound n _ Hn eq_refl HB)|exact Hk].
Qed.

(** A memory as the allocations of createTree leave it: the nodes in one block; [blocks]: what lies beside the tree. *)
Definition tree_place (n s k : nat) : ptr := if k <? node_count n then (0, k * s) else (k - node_count n + 1, 0).
Definition tree_memory (n s : nat) (blocks : list bytes) (b : nat) : bytes := nth b ([zeros (node_count n * s); zeros (node_count n); zeros (node_count n)] ++ blocks) [].
Lemma new_tree_in n s st blocks : 0 < s -> mm st = tree_memory n s blocks -> 3 <= nx st ->
  pv st 9 = map (tree_place n s) (seq 0 (node_count n)) -> pv st 10 = [(1, 0)] -> pv st 11 = [(2, 0)] -> new_tree n s st (tree_place n s) /\
  forall b l, 3 <= b -> outside (tree_parts n s (tree_place n s)) (b, 0) l.
Proof.
  intros Hs Hm Hx H9 H10 H11. set (nn := node_count n) in *.
  assert (Pl : forall k, k < nn -> tree_place n s k = (0, k * s)) by (intros k Hk; unfold tree_place; fold nn; rewrite (proj2 (Nat.ltb_lt k nn)) by lia; reflexivity).
  assert (Ph : tree_place n s nn = (1, 0)) by (unfold tree_place; fold nn; rewrite Nat.ltb_irrefl; f_equal; lia).
  assert (Pe : tree_place n s (nn + 1) = (2, 0)) by (unfold tree_place; fold nn; rewrite (proj2 (Nat.ltb_ge (nn + 1) nn)) by lia; f_equal; lia).
  assert (Tp : forall k, k < nn -> tree_part n s k = s) by (intros k Hk; unfold tree_part; fold nn; rewrite (proj2 (Nat.ltb_lt k nn)) by lia; reflexivity).
  assert (Tr : forall k, nn <= k -> tree_part n s k = nn) by (intros k Hk; unfold tree_part; fold nn; rewrite (proj2 (Nat.ltb_ge k nn)) by lia; reflexivity).
  assert (Cs : forall k, k < nn + 2 -> k < nn \/ k = nn \/ k = nn + 1) by (intros; lia).
  assert (Fb : forall k, k < nn + 2 -> fst (tree_place n s k) < 3) by (intros k Hk; destruct (Cs k Hk) as [X|[->| ->]]; [rewrite (Pl k X)|rewrite Ph|rewrite Pe]; cbn [fst]; lia).
  split; [split; fold nn|].
  - intros i j p k p' k' E1 E2 Hne. unfold tree_parts in E1, E2. fold nn in E1, E2.
    assert (X : forall i p k, nth_error (map (fun k => (tree_place n s k, tree_part n s k)) (seq 0 (nn + 2))) i = Some (p, k) -> i < nn + 2 /\ p = tree_place n s i /\ k = tree_part n s i).
    { clear. intros i p k E. assert (Hi : i < nn + 2) by (rewrite <- (seq_length (nn + 2) 0), <- (map_length (fun k => (tree_place n s k, tree_part n s k))); apply nth_error_Some; congruence).
      rewrite nth_error_map, nth_error_nth' with (d := 0) in E by (rewrite seq_length; exact Hi). rewrite seq_nth in E by exact Hi. cbn [option_map Nat.add] in E. injection E as <- <-. auto. }
    apply X in E1. apply X in E2. destruct E1 as (Hi & -> & ->), E2 as (Hj & -> & ->).
    destruct (Cs i Hi) as [Xi|[->| ->]], (Cs j Hj) as [Xj|[->| ->]]; rewrite ?Ph, ?Pe, ?(Pl i) by assumption; rewrite ?(Pl j) by assumption; unfold disj; cbn [fst snd]; try lia.
    rewrite (Tp i Xi), (Tp j Xj). right. destruct (Nat.lt_ge_cases i j); [left|right]; nia.
  - intros k Hk. split; [|apply bytes_ok_zeros]. destruct (Cs k Hk) as [X|[->| ->]].
    + rewrite (Pl k X), (Tp k X). split; [cbn; lia|]. intros i x Hx'. cbn [fst snd]. assert (Hi : i < s) by (rewrite <- (length_zeros s); apply nth_error_Some; unfold bytes, byte in *; congruence).
      assert (Ex : x = 0%N) by (apply nth_error_In in Hx'; apply repeat_spec in Hx'; exact Hx'). subst x.
      rewrite Hm. change (tree_memory n s blocks 0) with (repeat 0%N (nn * s)). rewrite nth_error_nth' with (d := 0%N) by (rewrite repeat_length; nia). rewrite nth_repeat. reflexivity.
    + rewrite Ph, Tr by lia. apply pts_block; [lia|rewrite Hm; reflexivity].
    + rewrite Pe, Tr by lia. apply pts_block; [lia|rewrite Hm; reflexivity].
  - intros k Hk. rewrite H9, nth_error_map, nth_error_nth' with (d := 0) by (rewrite seq_length; exact Hk). rewrite seq_nth by exact Hk. reflexivity.
  - rewrite Ph. exact H10.
  - rewrite Pe. exact H11.
  - intros b l Hb p k X. unfold tree_parts in X. apply in_map_iff in X. destruct X as (j & X & Hj). injection X as <- <-. apply in_seq in Hj. fold nn in Hj. left. cbn [fst]. specialize (Fb j ltac:(lia)). lia.
Qed.

Definition seeds_state (P : paramset) (n : nat) (root salt : bytes) : state :=
  mkState (fun _ => 0) (fun _ => 0%N)
    (args [] [[(5, 0)]; []; []; [(3, 0)]; [(4, 0)]; []; []; []; []; map (tree_place n (seedSizeBytes P)) (seq 0 (node_count n)); [(1, 0)]; [(2, 0)]])
    (tree_memory n (seedSizeBytes P) [root; salt; round_constant_bytes]) 6 0.
Lemma seeds_called P n root salt : 0 < seedSizeBytes P -> bytes_ok root -> bytes_ok salt -> seedSizeBytes P <= length root -> length salt = saltSizeBytes P ->
  seeds_call P n (seeds_state P n root salt) (tree_place n (seedSizeBytes P)) root salt.
Proof.
  intros Hs B3 B4 L3 L4. destruct (new_tree_in n (seedSizeBytes P) (seeds_state P n root salt) [root; salt; round_constant_bytes] Hs eq_refl ltac:(cbn; lia) eq_refl eq_refl eq_refl) as [Nt Out].
  split; [exact Nt|..].
  - exists (3, 0). split; [reflexivity|]. split; [|exact L3]. split; [apply pts_block; [cbn; lia|reflexivity]|]. split; [exact B3|apply Out; lia].
  - exists (4, 0). split; [reflexivity|]. split; [|exact L4]. split; [apply pts_block; [cbn; lia|reflexivity]|]. split; [exact B4|apply Out; lia].
  - exists (5, 0). split; [reflexivity|]. split; [|reflexivity]. split; [apply pts_block; [cbn; lia|reflexivity]|]. split; [|apply Out; lia]. apply Forall_forall. intros x Hx. revert x Hx. apply Forall_forall. repeat constructor.
Qed.
