(** The node sets of KkwSpec.v are those of tree.c. *)

From Coq Require Import List NArith Arith Bool Lia ZifyBool ZifyNat ZifyN.
From Verif Require Import Base Params Env Spec Tree BaseFacts ParamFacts UtilFacts
  TreeShape TreeSeed TreeReveal TreeOpen TreeMissing TreeMerkle TreeVerify TreeSpec TreeTop
  P3Bytes P3Tape P3Online P3Chal P3Round P3Seeds ZkbppSpec KkwSpec.
Import ListNotations.

Lemma member_contains x l : member x l = contains l x.
Proof. reflexivity. Qed.

Lemma member_In x l : member x l = true <-> In x l.
Proof. rewrite member_contains. apply contains_In. Qed.

Lemma member_false x l : member x l = false <-> ~ In x l.
Proof. rewrite member_contains. apply contains_false. Qed.

Lemma position_nth x l : In x l -> position x l < length l /\ nth (position x l) l 0 = x.
Proof.
  induction l as [|y l IH]; intros H; [destruct H|]. cbn [position length nth].
  destruct (Nat.eqb_spec x y) as [->|Hne]; [split; [lia|reflexivity]|].
  destruct H as [H|H]; [congruence|]. destruct (IH H). split; [lia|auto].
Qed.

(** Loops that end well compute the fold of their body. *)
Lemma foldM_fold {A S} (f : S -> A -> res S) (g : S -> A -> S) l :
  (forall s x s', In x l -> f s x = Ok s' -> s' = g s x) ->
  forall s s', foldM f l s = Ok s' -> s' = fold_left g l s.
Proof.
  induction l as [|x l IH]; intros Hf s s' H; cbn [foldM fold_left] in *; [congruence|].
  destruct (f s x) as [s1| | |] eqn:E; cbn [bind] in H; try discriminate.
  apply Hf in E; [|left; auto]. subst s1. apply IH; auto. intros; apply Hf; auto. right; auto.
Qed.

Lemma for_fold {S} (body : nat -> S -> res S) (g : S -> nat -> S) k : forall i s s',
  (forall j s s', i <= j < i + k -> body j s = Ok s' -> s' = g s j) ->
  for_loop k i body s = Ok s' -> s' = fold_left g (seq i k) s.
Proof.
  induction k as [|k IH]; intros i s s' Hf H; cbn [for_loop seq fold_left] in *; [congruence|].
  destruct (body i s) as [s1| | |] eqn:E; cbn [bind] in H; try discriminate.
  apply Hf in E; [|lia]. subst s1. apply (IH (Datatypes.S i)); auto. intros; apply Hf; auto. lia.
Qed.

Lemma parent_par i : 0 < i -> parent i = par i.
Proof.
  intros Hi. unfold parent, par. destruct (half_cases (i + 1)) as [H|H].
  - replace (i - 1) with (2 * ((i + 1) / 2 - 1)) by lia. apply div2_mul.
  - replace (i - 1) with (2 * ((i + 1) / 2 - 1) + 1) by lia. apply div2_succ.
Qed.

Section T.
Variable n : nat.
Hypothesis Hn : 2 <= n <= 1024.
Let D := Nat.log2_up n.
Let Hn2 : 2 <= n := proj1 Hn.
Let HnD : n <= 2 ^ D := n_pow n Hn.

Lemma leaf_eq l : leaf n l = nF D + l.
Proof. reflexivity. Qed.

Lemma leaf_n : leaf n n = nN n D.
Proof. reflexivity. Qed.

Lemma ancestor_eq l d : l < n -> d <= D -> ancestor d (leaf n l) = anc D l d - 1.
Proof.
  intros Hl. induction d as [|d IH]; intros Hd; cbn [ancestor].
  - rewrite anc_0, leaf_eq. unfold nF. pose proof (pow_pos D). lia.
  - rewrite IH by lia. pose proof (anc_ge2 n D Hn2 HnD l d Hl ltac:(lia)).
    rewrite parent_par by lia. apply (par_anc n D Hn2 HnD); auto.
Qed.

Lemma above_iff i l : l < n -> above n i l = true <-> exists d, d <= D /\ anc D l d = i + 1.
Proof.
  intros Hl. unfold above. rewrite existsb_exists. change (depth n) with D. split.
  - intros (d & Hd & He). apply in_seq in Hd. apply Nat.eqb_eq in He. rewrite ancestor_eq in He by (auto; lia).
    exists d. split; [lia|]. pose proof (anc_rng n D Hn2 HnD l d Hl ltac:(lia)). pose proof (pow_pos (D - d)). lia.
  - intros (d & Hd & He). exists d. split; [apply in_seq; lia|]. apply Nat.eqb_eq. rewrite ancestor_eq by auto. lia.
Qed.

Lemma in_tree_eq i : in_tree n i = ext n D i.
Proof.
  apply eq_true_iff_eq. unfold in_tree. rewrite existsb_exists. split.
  - intros (l & Hl & Ha). apply in_seq in Hl. apply above_iff in Ha; [|lia]. destruct Ha as (d & Hd & Ha).
    replace i with (anc D l d - 1) by lia. apply ext_anc; auto. lia.
  - intros H. destruct (ext_anc_of n D Hn2 HnD i H) as (l & d & Hl & Hd & Ha). exists l.
    split; [apply in_seq; lia|]. apply above_iff; eauto.
Qed.

Lemma sibling_eq h : 2 <= h -> sibling (h - 1) = sib h - 1.
Proof.
  intros Hh. unfold sibling, sib. replace (Nat.odd (h - 1)) with (Nat.even h).
  - destruct (Nat.even h); lia.
  - replace h with (S (h - 1)) at 1 by lia. rewrite Nat.even_succ. reflexivity.
Qed.

Lemma only_child_eq h : 0 < h -> only_child n (h - 1) = dsc n D h - 1.
Proof.
  intros Hh. unfold only_child, dsc. rewrite leaf_n. unfold nN. pose proof (pow_pos D).
  destruct (Nat.eqb_spec (2 ^ D - 1 + n) (2 * (h - 1) + 2)), (Nat.eqb_spec (2 * h + 1) (2 ^ D + n)); lia.
Qed.

Section Hide.
Variable hide : list nat.
Hypothesis Hhide : Forall (fun l => l < n) hide.

Let hide_lt l : In l hide -> l < n.
Proof. rewrite Forall_forall in Hhide. auto. Qed.

Lemma has_sib sz t h : shape n D sz t -> 2 <= h < nN n D + 1 -> exh n D h = true ->
  hasSibling t (h - 1) = Ok (ext n D (sib h - 1)).
Proof.
  intros Ht Hh Hea. unfold nN in Hh.
  assert (Hx : ext n D (h - 1) = true).
  { unfold ext, nN. replace (h - 1 + 1) with h by lia. rewrite Hea. lia. }
  unfold hasSibling. rewrite (tree_exists_ok n D sz) by auto. cbn [bind]. rewrite Hx. cbn [negb].
  rewrite isLeftChild_ok by lia. cbn [bind]. replace (h - 1 + 1) with h by lia. unfold sib.
  destruct (even_cases h) as [[He H2]|[He H2]]; rewrite He.
  - rewrite (tree_exists_ok n D sz) by auto. f_equal. f_equal. lia.
  - f_equal. symmetry. replace (h - 1 - 1) with (2 * (h / 2 - 1) + 1) by lia.
    apply (ext_right_left n D Hn2 HnD). replace (2 * (h / 2 - 1) + 2) with (h - 1) by lia. exact Hx.
Qed.

Lemma reveal_step_is sz t d l rv rv' : shape n D sz t -> d < D -> In l hide ->
  let level := map (fun l => ancestor d (leaf n l)) hide in
  reveal_step t level rv (ancestor d (leaf n l)) = Ok rv' ->
  rv' = (let i := ancestor d (leaf n l) in
         if in_tree n (sibling i) && negb (member (sibling i) level)
         then append_new rv (only_child n (sibling i)) else rv).
Proof.
  intros Ht Hd Hl level. pose proof (hide_lt l Hl) as Hln. cbv zeta. rewrite (ancestor_eq l d) by (auto; lia).
  set (h := anc D l d). pose proof (anc_ge2 n D Hn2 HnD l d Hln Hd) as Hg. fold h in Hg.
  pose proof (anc_exh n D Hn2 HnD l d Hln ltac:(lia)) as He. fold h in He.
  pose proof (ext_lt n D _ (ext_anc n D Hn2 HnD l d Hln ltac:(lia))) as Hlt. fold h in Hlt.
  rewrite sibling_eq by auto. rewrite in_tree_eq, member_contains. unfold reveal_step.
  rewrite (has_sib sz) by (auto; lia). cbn [bind].
  destruct (ext n D (sib h - 1)) eqn:Es; cbn [negb andb]; [|congruence].
  assert (Hgs : getSibling t (h - 1) = Ok (sib h - 1)).
  { unfold getSibling. rewrite (sh_N _ _ _ _ Ht). replace (h - 1 <? nN n D) with true by lia.
    replace (h - 1 =? 0) with false by lia. cbn [negb c_assert bind]. rewrite (has_sib sz) by (auto; lia).
    rewrite Es. cbn [c_assert bind]. rewrite isLeftChild_ok by lia. cbn [bind]. replace (h - 1 + 1) with h by lia.
    pose proof (ext_lt n D _ Es) as Hs. unfold sib in *. destruct (Nat.even h).
    - replace (h <? nN n D) with true by lia. try reflexivity; f_equal; lia.
    - reflexivity. }
  rewrite Hgs. cbn [bind].
  destruct (contains level (sib h - 1)); cbn [negb]; [congruence|].
  assert (Hs0 : 0 < sib h).
  { destruct (Nat.eq_dec (sib h) 0); [|lia]. unfold sib in *. destruct (Nat.even h); lia. }
  rewrite (descend_ok n D Hn2 HnD sz t (sib h)); auto.
  - cbn [bind]. rewrite only_child_eq by lia. unfold append_new. rewrite member_contains.
    destruct (contains rv (dsc n D (sib h) - 1)); [congruence|].
    destruct (length rv <? t_numLeaves t); cbn [guard bind]; [congruence|discriminate].
  - rewrite (sh_depth _ _ _ _ Ht). lia.
  - pose proof (ext_lt n D _ Es) as Hs. unfold nN in Hs. lia.
  - unfold ext in Es. replace (sib h - 1 + 1) with (sib h) in Es by lia. lia.
Qed.

Lemma reveal_eq : rvs n hide = reveal n hide.
Proof.
  pose proof (createTree_ok n D ltac:(lia) eq_refl (D_small n Hn) 0) as H. apply ok_ex in H.
  destruct H as (t & He & Ht & _). destruct (rvs_ok n Hn hide 0 t Hhide Ht) as [Hr _]. revert Hr.
  unfold getRevealedNodes. rewrite (sh_depth _ _ _ _ Ht). replace (D + 1 - 1) with D by lia.
  pose proof (D_pos n D Hn2 HnD) as HD. replace (0 <? D) with true by lia. cbn [guard bind].
  rewrite (mapM_pure _ (fun l => map (fun d => anc D l d - 1) (seq 0 D))).
  2:{ intros l Hl. rewrite (firstLeaf_eq n D 0) by auto. unfold nF.
      rewrite <- (path_up_ok n D Hn2 HnD) by (auto; lia). f_equal. rewrite anc_0. pose proof (pow_pos D). lia. }
  cbn [bind]. intros Hr. unfold reveal. change (depth n) with D. revert Hr. apply for_fold.
  intros d rv rv' Hd. rewrite (mapM_pure _ (fun p => nth d p 0)).
  2:{ intros p Hp. apply in_map_iff in Hp. destruct Hp as (l & <- & Hl).
      apply rd_ok. rewrite map_length, seq_length. lia. }
  cbn [bind]. rewrite map_map. rewrite (map_ext_in _ (fun l => ancestor d (leaf n l))).
  2:{ intros l Hl. rewrite nth_map_seq by lia. symmetry. apply ancestor_eq; auto. lia. }
  unfold reveal_level. apply foldM_fold. intros z i z' Hi Hz. apply in_map_iff in Hi.
  destruct Hi as (l & <- & Hl). apply (reveal_step_is 0 t d l z z' Ht ltac:(lia) Hl Hz).
Qed.
End Hide.

(** ** Merkle trees *)
Section Miss.
Variable miss : list nat.
Hypothesis Hmiss : Forall (fun l => l < n) miss.

Let miss_lt l : In l miss -> l < n.
Proof. rewrite Forall_forall in Hmiss. auto. Qed.

(** The marking of the code. *)
Let m (x : nat) : bool := (0 <? x) && lacking n miss x.

Lemma lacking_iff x : lacking n miss x = true <->
  ext n D x = true /\ forall l d, l < n -> d <= D -> anc D l d = x + 1 -> In l miss.
Proof.
  unfold lacking. rewrite andb_true_iff, in_tree_eq, forallb_forall. split; intros [H1 H2]; (split; [auto|]).
  - intros l d Hl Hd Ha. specialize (H2 l ltac:(apply in_seq; lia)).
    assert (Hab : above n x l = true) by (apply above_iff; eauto). rewrite Hab in H2. cbn [negb orb] in H2.
    apply member_In. auto.
  - intros l Hl. apply in_seq in Hl. destruct (above n x l) eqn:E; [|reflexivity]. cbn [negb orb].
    apply above_iff in E; [|lia]. destruct E as (d & Hd & Ha). apply member_In. apply (H2 l d); auto. lia.
Qed.

Lemma lacking_ext x : lacking n miss x = true -> ext n D x = true.
Proof. intros H. apply lacking_iff in H. apply H. Qed.

Lemma m_spec : missing_spec n D miss m.
Proof.
  unfold m. split; [reflexivity|]. split.
  - intros l Hl. assert (H0 : 0 < nF D + l).
    { unfold nF. assert (2 <= 2 ^ D) by lia. lia. }
    replace (0 <? nF D + l) with true by lia. cbn [andb]. apply eq_true_iff_eq.
    rewrite lacking_iff, contains_In. split.
    + intros [_ H]. apply (H l 0 Hl ltac:(lia)). rewrite anc_0. unfold nF. pose proof (pow_pos D). lia.
    + intros Hin. split; [apply ext_leaf; auto|]. intros l' d Hl' Hd Ha.
      pose proof (anc_rng n D Hn2 HnD l' d Hl' Hd) as Hr. rewrite Ha in Hr. unfold nF in Hr. pose proof (pow_pos D).
      assert (d = 0).
      { destruct d as [|d]; auto. assert (2 * 2 ^ (D - S d) <= 2 ^ D).
        { rewrite <- pow_S. apply Nat.pow_le_mono_r; lia. } lia. }
      subst d. rewrite anc_0 in Ha. unfold nF in Ha. assert (l' = l) by lia. subst l'. auto.
  - intros x Hx0 Hx. replace (0 <? x) with true by lia. replace (0 <? 2 * x + 1) with true by lia.
    replace (0 <? 2 * x + 2) with true by lia. cbn [andb]. apply eq_true_iff_eq.
    rewrite !andb_true_iff, orb_true_iff, negb_true_iff, !lacking_iff. 
    assert (Hkid : forall l d y, l < n -> d <= D -> anc D l d = y + 1 -> (y = 2 * x + 1 \/ y = 2 * x + 2) -> S d <= D /\ anc D l (S d) = x + 1).
    { intros l d y Hl Hd Ha Hy. rewrite anc_S, Ha. split.
      - destruct (Nat.eq_dec d D) as [->|]; [|lia]. rewrite (anc_root n D Hn2 HnD l Hl) in Ha. lia.
      - destruct Hy as [->| ->]; [replace (2 * x + 1 + 1) with (2 * (x + 1)) by lia; apply div2_mul|].
        replace (2 * x + 2 + 1) with (2 * (x + 1) + 1) by lia. apply div2_succ. }
    split.
    + intros [He Hl]. split; [split; [auto|split]|].
      * rewrite (ext_nonleaf_left n D Hn2 HnD) by auto. auto.
      * intros l d Hl1 Hd Ha. destruct (Hkid l d _ Hl1 Hd Ha (or_introl eq_refl)). apply (Hl l (S d)); auto.
      * destruct (ext n D (2 * x + 2)); [|left; auto]. right. split; [auto|].
        intros l d Hl1 Hd Ha. destruct (Hkid l d _ Hl1 Hd Ha (or_intror eq_refl)). apply (Hl l (S d)); auto.
    + intros [[He [Hel Hl]] Hr]. split; [auto|]. intros l d Hl1 Hd Ha. destruct d as [|d].
      * rewrite anc_0 in Ha. lia.
      * rewrite anc_S in Ha. destruct (half_cases (anc D l d)) as [Hc|Hc]; rewrite Ha in Hc.
        -- apply (Hl l d); auto; lia.
        -- destruct Hr as [Hr|[_ Hr]]; [|apply (Hr l d); auto; lia]. exfalso.
           pose proof (ext_anc n D Hn2 HnD l d Hl1 ltac:(lia)) as Hx'.
           replace (anc D l d - 1) with (2 * x + 2) in Hx' by lia. congruence.
Qed.

Lemma last_filter_prefix {A} (f : A -> bool) (l : list A) d k : k < length l ->
  (forall j, j <= k -> f (nth j l d) = true) -> (forall j, k < j < length l -> f (nth j l d) = false) ->
  last (filter f l) d = nth k l d.
Proof.
  revert k; induction l as [|x l IH]; intros k Hk H1 H2; [cbn in Hk; lia|].
  assert (Hnil : forall l, (forall j, j < length l -> f (nth j l d) = false) -> filter f l = []).
  { clear. induction l as [|y l IH]; intros H; auto. cbn [filter].
    pose proof (H 0 ltac:(cbn; lia)) as H0. cbn [nth] in H0. rewrite H0. apply IH.
    intros j Hj. apply (H (S j)). cbn. lia. }
  pose proof (H1 0 ltac:(lia)) as H0. cbn [nth] in H0. cbn [filter]. rewrite H0.
  destruct k as [|k]; cbn [nth].
  - rewrite Hnil; [reflexivity|]. intros j Hj. apply (H2 (S j)). cbn. lia.
  - assert (IHk := IH k ltac:(cbn in Hk; lia) (fun j Hj => H1 (S j) ltac:(lia)) (fun j Hj => H2 (S j) ltac:(cbn; lia))).
    assert (Hne : filter f l <> []).
    { intros E. pose proof (H1 1 ltac:(lia)) as E1. cbn [nth] in E1. destruct l as [|y l]; [cbn in Hk; lia|].
      cbn [nth filter] in *. rewrite E1 in E. discriminate. }
    destruct (filter f l) as [|y r]; [congruence|]. exact IHk.
Qed.

Lemma top_lacking_eq l d : In l miss -> d < D -> m (anc D l d - 1) = true -> m (anc D l (S d) - 1) = false ->
  top_lacking n miss l = anc D l d - 1.
Proof.
  intros Hin Hd H1 H2. pose proof (miss_lt l Hin) as Hl. unfold top_lacking. change (depth n) with D.
  set (L := map (fun d => ancestor d (leaf n l)) (seq 0 D)).
  assert (HL : length L = D) by (unfold L; rewrite map_length, seq_length; auto).
  assert (Hnth : forall j, j < D -> nth j L (leaf n l) = anc D l j - 1).
  { intros j Hj. unfold L. rewrite nth_map_seq by auto. apply ancestor_eq; auto. lia. }
  rewrite (last_filter_prefix _ L (leaf n l) d).
  - apply Hnth; auto.
  - lia.
  - intros j Hj. rewrite Hnth by lia. apply (m_path n D Hn2 HnD miss Hmiss m m_spec l d j) in H1; auto; [|lia].
    unfold m in H1. apply andb_true_iff in H1. apply H1.
  - intros j Hj. rewrite HL in Hj. rewrite Hnth by lia. destruct (lacking n miss (anc D l j - 1)) eqn:E; auto. exfalso.
    assert (Hm : m (anc D l j - 1) = true).
    { unfold m. rewrite E. pose proof (anc_ge2 n D Hn2 HnD l j Hl ltac:(lia)). lia. }
    apply (m_path n D Hn2 HnD miss Hmiss m m_spec l j (S d)) in Hm; auto; [congruence|lia|lia].
Qed.

Lemma open_eq : mrvs n miss = open_nodes n miss.
Proof.
  pose proof (createTree_ok n D ltac:(lia) eq_refl (D_small n Hn) 0) as H. apply ok_ex in H.
  destruct H as (t & He & Ht & _). destruct (mrvs_ok n Hn miss 0 t Hmiss Ht) as [Hr _]. revert Hr.
  unfold getRevealedMerkleNodes. pose proof (mark_missing_ok n D Hn2 HnD miss Hmiss _ _ Ht) as M1. apply ok_ex in M1.
  destruct M1 as (ml & -> & L1 & S1). cbn [bind]. unfold open_nodes. apply foldM_fold.
  intros z l z' Hl Hz. pose proof (miss_lt l Hl) as Hln. rewrite (firstLeaf_eq n D 0) in Hz by auto.
  set (m' := fun x => nth x ml false) in *.
  assert (Hmm : forall x, ext n D x = true -> m' x = m x).
  { intros x Hx. apply (missing_unique n D Hn2 HnD miss Hmiss m' m S1 m_spec). apply ext_lt. auto. }
  pose proof (D_pos n D Hn2 HnD) as HD.
  destruct (highest_missing_ok n D Hn2 HnD miss Hmiss m' S1 l ml Hln L1 (fun x => eq_refl) (t_depth t) 0 HD)
    as (d' & Hd' & Hh & H1 & H2).
  { rewrite (sh_depth _ _ _ _ Ht). lia. }
  { destruct S1 as (_ & Ml & _). replace (anc D l 0 - 1) with (nF D + l) by (rewrite anc_0; unfold nF; pose proof (pow_pos D); lia).
    rewrite Ml by auto. apply contains_In. auto. }
  replace (anc D l 0 - 1) with (l + nF D) in Hh by (rewrite anc_0; unfold nF; pose proof (pow_pos D); lia).
  rewrite Hh in Hz. cbn [bind] in Hz. rewrite Hmm in H1, H2 by (apply ext_anc; auto; lia).
  rewrite (top_lacking_eq l d' Hl ltac:(lia) H1 H2). unfold append_new. rewrite member_contains.
  destruct (contains z (anc D l d' - 1)); [congruence|].
  destruct (length z <? t_numLeaves t); cbn [guard bind] in Hz; [congruence|discriminate].
Qed.
End Miss.
End T.
