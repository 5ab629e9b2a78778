(** Opening and rebuilding seed trees (tree.c:168-177, 293-360). *)

From Coq Require Import List NArith Arith Bool FinFun Lia ZifyBool ZifyNat ZifyN.
From Verif Require Import Base Params Env Spec Tree BaseFacts UtilFacts TreeShape TreeSeed TreeReveal.
Import ListNotations.

(** Block [j] of size [sz] of a byte string. *)
Definition blk (sz : nat) (b : bytes) (j : nat) : bytes := firstn sz (skipn (j * sz) b).

Lemma length_blk sz b j : (j + 1) * sz <= length b -> length (blk sz b j) = sz.
Proof. intros. unfold blk. rewrite firstn_length, skipn_length. lia. Qed.

Lemma blk_concat sz (l : list bytes) j d : (forall x, In x l -> length x = sz) -> j < length l ->
  blk sz (concat l) j = nth j l d.
Proof.
  revert j; induction l as [|x l IH]; intros j Hl Hj; [cbn in Hj; lia|].
  assert (Hx : length x = sz) by (apply Hl; left; auto).
  destruct j as [|j]; cbn [concat nth].
  - unfold blk. rewrite Nat.mul_0_l. cbn [skipn]. rewrite <- Hx. rewrite firstn_app, Nat.sub_diag, firstn_all, firstn_O. apply app_nil_r.
  - rewrite <- (IH j); [|intros; apply Hl; right; auto|cbn in Hj; lia].
    unfold blk. f_equal. cbn [Nat.mul]. rewrite skipn_app, skipn_all2 by lia. cbn [app]. f_equal. lia.
Qed.

Lemma length_concat_const sz (l : list bytes) : (forall x, In x l -> length x = sz) ->
  length (concat l) = length l * sz.
Proof.
  induction l as [|x l IH]; intros H; auto. cbn [concat length]. rewrite app_length, IH, (H x).
  - lia.
  - left; auto.
  - intros; apply H; right; auto.
Qed.

Section Put.
Variables n D sz : nat.

Lemma put_revealed_ok rv t input off :
  shape n D sz t -> NoDup rv -> (forall r, In r rv -> r < nN n D) ->
  off + length rv * sz <= length input ->
  exists t', put_revealed sz t rv input off (length input - off) =
             Ok (Some (t', length input - off - length rv * sz)) /\
    shape n D sz t' /\
    (forall x, hv t' x = hv t x || contains rv x) /\
    (forall x, ~ In x rv -> nd t' x = nd t x) /\
    (forall j, j < length rv -> nd t' (nth j rv 0) = firstn sz (skipn (off + j * sz) input)).
Proof.
  revert t off; induction rv as [|r rv IH]; intros t off Ht Hnd Hlt Hlen.
  - exists t. cbn [put_revealed length]. rewrite Nat.sub_0_r. split; [reflexivity|]. split; [auto|].
    split; [intros; cbn; rewrite orb_false_r; auto|]. split; [auto|]. cbn. lia.
  - cbn [put_revealed length] in *. replace (length input - off <? sz) with false by lia.
    rewrite slice_ok by lia. cbn [bind].
    pose proof (put_node_ok n D sz t r (firstn sz (skipn off input)) Ht) as Hp.
    apply ok_ex in Hp; [|apply Hlt; left; auto|rewrite length_slice; lia].
    destruct Hp as (t1 & -> & Hs1 & Hn1 & Hh1). cbn [bind].
    inversion Hnd as [|? ? Hnin Hnd']; subst.
    destruct (IH t1 (off + sz)) as (t' & He & Hs & Hh & Hno & Hj); auto.
    { intros; apply Hlt; right; auto. }
    { lia. }
    exists t'. replace (length input - off - sz) with (length input - (off + sz)) by lia. rewrite He.
    split; [do 3 f_equal; lia|]. split; [auto|]. split; [|split].
    + intros x. rewrite Hh, Hh1. cbn [contains existsb]. destruct (x =? r); cbn [orb].
      * rewrite orb_true_r. reflexivity.
      * reflexivity.
    + intros x Hx. rewrite Hno by (intros H; apply Hx; right; auto). rewrite Hn1.
      destruct (Nat.eqb_spec x r) as [->|]; auto. exfalso. apply Hx. left; auto.
    + intros [|j] Hjl.
      * cbn [nth]. rewrite Hno by auto. rewrite Hn1, Nat.eqb_refl. do 2 f_equal. lia.
      * cbn [nth]. rewrite Hj by lia. do 2 f_equal. lia.
Qed.

Lemma put_revealed_short rv t input off :
  shape n D sz t -> (forall r, In r rv -> r < nN n D) ->
  off <= length input -> length input < off + length rv * sz ->
  put_revealed sz t rv input off (length input - off) = Ok None.
Proof.
  revert t off; induction rv as [|r rv IH]; intros t off Ht Hlt Ho Hlen; [cbn in Hlen; lia|].
  cbn [put_revealed length] in *. destruct (Nat.ltb_spec (length input - off) sz); [reflexivity|].
  rewrite slice_ok by lia. cbn [bind].
  pose proof (put_node_ok n D sz t r (firstn sz (skipn off input)) Ht) as Hp.
  apply ok_ex in Hp; [|apply Hlt; left; auto|rewrite length_slice; lia].
  destruct Hp as (t1 & -> & Hs1 & _). cbn [bind].
  replace (length input - off - sz) with (length input - (off + sz)) by lia.
  apply IH; auto; try lia. intros; apply Hlt; right; auto.
Qed.

End Put.

(** ** Counting *)
Section Count.
Variables n D : nat.
Hypothesis Hn : 2 <= n.
Hypothesis HnD : n <= 2 ^ D.
Variable hide : list nat.
Hypothesis Hhide : Forall (fun l => l < n) hide.
Hypothesis Hne : hide <> [].

Lemma nsum_ext f g k : (forall i, i < k -> f i = g i) -> nsum f k = nsum g k.
Proof. induction k; intros H; auto. cbn [nsum]. rewrite IHk, H; auto. Qed.

Lemma nsum_le f g k : (forall i, i < k -> f i <= g i) -> nsum f k <= nsum g k.
Proof. induction k as [|k IH]; intros H; auto. cbn [nsum]. pose proof (H k). assert (nsum f k <= nsum g k) by auto. lia. Qed.

Lemma nsum_pred f k : 0 < k -> nsum f k = nsum f (k - 1) + f (k - 1).
Proof. destruct k; intros; [lia|]. cbn [nsum]. replace (S k - 1) with k by lia. reflexivity. Qed.

Lemma cnt_le_len d : cnt D hide d <= length hide.
Proof.
  unfold cnt. rewrite <- (map_length (fun l => anc D l d) hide).
  apply NoDup_incl_length; [apply NoDup_nodup|]. intros a Ha. apply nodup_In in Ha. auto.
Qed.

Lemma cnt_le_pow d : d <= D -> cnt D hide d <= 2 ^ (D - d).
Proof.
  intros Hd. unfold cnt. rewrite <- (seq_length (2 ^ (D - d)) (2 ^ (D - d))).
  apply NoDup_incl_length; [apply NoDup_nodup|]. intros a Ha. apply nodup_In in Ha.
  apply (lev_rng n D Hn HnD hide Hhide) in Ha; auto. apply in_seq. lia.
Qed.

Lemma cnt_top : cnt D hide D = 1.
Proof.
  assert (cnt D hide D <= 1) by (pose proof (cnt_le_pow D); rewrite Nat.sub_diag in *; cbn in *; lia).
  unfold cnt in *. destruct (nodup Nat.eq_dec (lev D hide D)) eqn:E; [|cbn in *; lia].
  exfalso. destruct hide as [|l r]; [congruence|].
  assert (In (anc D l D) (nodup Nat.eq_dec (lev D (l :: r) D))) as Hi by (apply nodup_In; left; auto).
  rewrite E in Hi. contradiction.
Qed.

Lemma cnt_0 : NoDup hide -> cnt D hide 0 = length hide.
Proof.
  intros H. unfold cnt. rewrite nodup_fixed_point.
  - unfold lev. apply map_length.
  - unfold lev. apply Injective_map_NoDup; auto. intros a b. rewrite !anc_0. lia.
Qed.

Lemma cnt_half d : cnt D hide d <= 2 * cnt D hide (S d).
Proof.
  unfold cnt. set (K := nodup Nat.eq_dec (lev D hide (S d))).
  assert (Hk : length (flat_map (fun h => [2 * h; 2 * h + 1]) K) = 2 * length K).
  { generalize K. intros ls. induction ls as [|a ls IH]; auto.
    cbn [flat_map]. rewrite app_length, IH. cbn [length]. lia. }
  rewrite <- Hk. apply NoDup_incl_length; [apply NoDup_nodup|].
  intros a Ha. apply nodup_In in Ha. apply in_map_iff in Ha. destruct Ha as (l & <- & Hl).
  apply in_flat_map. exists (anc D l (S d)). split.
  - apply nodup_In. apply in_map_iff. eauto.
  - rewrite anc_S. cbn [In]. destruct (half_cases (anc D l d)); lia.
Qed.

(** The most nodes an opening of [u] of at most 2^D leaves can need. *)
Definition rbound (D u : nat) : nat := 2 + nsum (fun d => Nat.min (2 ^ (D - S d)) u) (D - 1) - u.

Lemma nsum_telescope k :
  nsum (fun d => 2 * cnt D hide (S d) - cnt D hide d) k + cnt D hide 0 
  = nsum (fun d => cnt D hide (S d)) k + cnt D hide k.
Proof.
  induction k as [|k IH]; [reflexivity|]. cbn [nsum]. pose proof (cnt_half k). lia.
Qed.

Lemma count_bound : NoDup hide ->
  nsum (fun d => 2 * cnt D hide (S d) - cnt D hide d) D <= rbound D (length hide).
Proof.
  intros Hnd. pose proof (D_pos n D Hn HnD) as HD.
  pose proof (nsum_telescope D) as Ht. rewrite cnt_top, cnt_0 in Ht by auto.
  assert (HDe : nsum (fun d => cnt D hide (S d)) D = nsum (fun d => cnt D hide (S d)) (D - 1) + 1).
  { rewrite (nsum_pred _ D) by auto. replace (S (D - 1)) with D by lia. rewrite cnt_top. reflexivity. }
  assert (Hle : nsum (fun d => cnt D hide (S d)) (D - 1)
                <= nsum (fun d => Nat.min (2 ^ (D - S d)) (length hide)) (D - 1)).
  { apply nsum_le. intros i Hi. apply Nat.min_glb; [apply cnt_le_pow; lia|apply cnt_le_len]. }
  unfold rbound. lia.
Qed.

End Count.

(** ** Seed trees *)
Section Seeds.
Variable E : env.
Variable P : paramset.
Hypothesis HE : env_bytes_ok E.
Hypothesis seed_pos : 0 < seedSizeBytes P <= MAX_SEED_SIZE_BYTES.
Let sz := seedSizeBytes P.

Variables (n D : nat).
Hypothesis Hn : 2 <= n.
Hypothesis HD : D = Nat.log2_up n.
Hypothesis Hbig : D < 30.

Let HnD : n <= 2 ^ D := D_bound n D Hn HD Hbig.

Variables (salt : bytes) (rep : nat).
Hypothesis Hsalt : saltSizeBytes P <= length salt.

(** A fully expanded seed tree. *)
Definition full_seeds (root : bytes) (t : tree) : Prop :=
  shape n D sz t /\ (forall x, hv t x = ext n D x) /\ nd t 0 = root /\
  (forall x, 0 < x -> ext n D x = true ->
     nd t x = seed_half P x (seed_hash E P salt rep (nd t (par x)) (par x))).

Lemma ext_0 : ext n D 0 = true.
Proof. unfold ext, nN. rewrite exh_root by auto. pose proof (pow_pos D). lia. Qed.

Lemma generateSeeds_ok root : sz <= length root ->
  ok (generateSeeds E P n root salt rep) (full_seeds (firstn sz root)).
Proof.
  intros Hr. unfold generateSeeds. eapply ok_step; [apply createTree_ok; eauto|].
  intros t (Ht & _ & Hhv). rewrite slice0_ok by auto. cbn [bind].
  eapply ok_step; [apply put_node_ok; eauto; [unfold nN; lia|rewrite firstn_length; fold sz; lia]|].
  intros t0 (Ht0 & Hn0 & Hh0).
  eapply ok_mono; [apply expandSeeds_ok; eauto|].
  { intros x. rewrite Hh0, Hhv. destruct (Nat.eqb_spec x 0) as [->|]; [intros; apply ext_0|discriminate]. }
  intros s (Hs & Hh & Ho & Hc).
  assert (Hhe : forall x, hv s x = ext n D x).
  { intros x. induction x as [x IH] using (well_founded_induction lt_wf).
    rewrite Hh, Hh0, Hhv. destruct (Nat.eqb_spec x 0) as [->|Hx]; [rewrite ext_0; reflexivity|].
    rewrite IH by (apply par_lt; lia). cbn [orb].
    destruct (ext n D x) eqn:Ex; [|reflexivity]. rewrite (ext_par n D Hn HnD x) by (auto; lia). lia. }
  split; [auto|]. split; [auto|]. split.
  - rewrite Ho by (rewrite Hh0; reflexivity). rewrite Hn0. reflexivity.
  - intros x Hx Ex. apply Hc.
    + rewrite Hhe. auto.
    + rewrite Hh0, Hhv. replace (x =? 0) with false by lia. reflexivity.
Qed.

Variable hide : list nat.
Hypothesis Hhide : Forall (fun l => l < n) hide.

Definition revealed (rv : list nat) : Prop :=
  NoDup rv /\ (forall r, In r rv <-> Rv n D hide r) /\
  (hide <> [] -> NoDup hide -> length rv <= rbound D (length hide)) /\ length rv <= n.

Lemma revealed_ok s t : shape n D s t -> ok (getRevealedNodes t hide) revealed.
Proof.
  intros Ht. eapply ok_mono; [eapply getRevealedNodes_ok; eauto|].
  intros rv (H1 & H2 & H3). split; [auto|]. split; [auto|]. split.
  - intros Hne Hnd. etransitivity; [exact H3|]. eapply count_bound; eauto.
  - eapply Rv_length; eauto. intros r. apply H2.
Qed.

(** The list only depends on the shape. *)
Lemma getRevealedNodes_shape s1 s2 t1 t2 :
  shape n D s1 t1 -> shape n D s2 t2 -> getRevealedNodes t1 hide = getRevealedNodes t2 hide.
Proof.
  intros H1 H2.
  assert (Hx : forall i, nth i (t_exists t1) false = nth i (t_exists t2) false).
  { intros i. destruct (Nat.lt_ge_cases i (nN n D)).
    - rewrite (sh_ex _ _ _ _ H1), (sh_ex _ _ _ _ H2) by auto. reflexivity.
    - rewrite !nth_overflow; auto; [rewrite (sh_exl _ _ _ _ H2)|rewrite (sh_exl _ _ _ _ H1)]; auto. }
  assert (He : t_exists t1 = t_exists t2).
  { apply nth_ext with false false; auto. rewrite (sh_exl _ _ _ _ H1), (sh_exl _ _ _ _ H2). auto. }
  assert (Hte : forall i, tree_exists t1 i = tree_exists t2 i).
  { intros i. unfold tree_exists. rewrite He, (sh_N _ _ _ _ H1), (sh_N _ _ _ _ H2). reflexivity. }
  assert (HN : t_numNodes t1 = t_numNodes t2) by (rewrite (sh_N _ _ _ _ H1), (sh_N _ _ _ _ H2); auto).
  assert (Hs : forall x, hasSibling t1 x = hasSibling t2 x).
  { intros x. unfold hasSibling. rewrite Hte. apply bind_ext. intros e _. destruct e; auto. cbn [negb].
    apply bind_ext. intros b _. rewrite Hte. reflexivity. }
  assert (Hdsc : forall f x, descend f t1 x = descend f t2 x).
  { induction f as [|f IH]; intros x; cbn [descend]; unfold hasRightChild, isLeafNode; rewrite HN, Hte;
      apply bind_ext; intros b _; destruct (b || (t_numNodes t2 <=? 2 * x + 1)); auto. }
  assert (Hstep : forall lv rv x, reveal_step t1 lv rv x = reveal_step t2 lv rv x).
  { intros lv rv x. unfold reveal_step, getSibling. rewrite !Hs, HN.
    rewrite (sh_depth _ _ _ _ H1), (sh_depth _ _ _ _ H2), (sh_n _ _ _ _ H1), (sh_n _ _ _ _ H2).
    apply bind_ext. intros h _. destruct h; auto. cbn [negb]. apply bind_ext. intros sb _.
    destruct (contains lv sb); auto. rewrite Hdsc. reflexivity. }
  assert (Hfold : forall lv l rv, foldM (reveal_step t1 lv) l rv = foldM (reveal_step t2 lv) l rv).
  { intros lv l. induction l as [|a l IH]; intros rv; cbn [foldM]; auto. rewrite Hstep.
    apply bind_ext. intros rv' _. apply IH. }
  unfold getRevealedNodes. unfold firstLeaf.
  rewrite (sh_depth _ _ _ _ H1), (sh_depth _ _ _ _ H2), HN, (sh_n _ _ _ _ H1), (sh_n _ _ _ _ H2).
  apply bind_ext. intros _ _. apply bind_ext. intros paths _.
  apply for_loop_ext. intros d rv _. apply bind_ext. intros lv _. apply Hfold.
Qed.

Lemma revealSeedsSize_ok : ok (revealSeedsSize P n hide) (fun k =>
  forall s t, shape n D s t -> exists rv, getRevealedNodes t hide = Ok rv /\ revealed rv /\ k = length rv * sz).
Proof.
  unfold revealSeedsSize. eapply ok_step; [apply createTree_ok; eauto|]. intros t (Ht & _).
  pose proof (revealed_ok _ _ Ht) as Hrv. apply ok_ex in Hrv. destruct Hrv as (rv & He & Hr).
  rewrite He. cbn [bind ok]. intros s t' Ht'. exists rv.
  rewrite (getRevealedNodes_shape _ _ _ _ Ht' Ht). auto.
Qed.

Lemma revealSeeds_ok s t rv outputSize : shape n D s t -> sz <= s -> getRevealedNodes t hide = Ok rv -> revealed rv ->
  exceeds_int outputSize = false -> length rv * sz <= outputSize ->
  revealSeeds P t hide outputSize = Ok (Some (concat (map (fun r => firstn sz (nd t r)) rv))).
Proof.
  intros Ht Hs Hrv (Hnd & Hin & _) Hi Hlen. unfold revealSeeds. rewrite Hi, Hrv. cbn [bind].
  assert (Hgen : forall rest out ol, (forall r, In r rest -> r < nN n D) -> length rest * sz <= ol ->
    foldM (fun '(out, outLen) r =>
               _ <- c_assert (seedSizeBytes P <=? outLen) ;;
               nd <- rd (t_nodes t) r ;;
               d <- slice nd 0 (seedSizeBytes P) ;;
               Ok (out ++ d, outLen - seedSizeBytes P)) rest (out, ol)
    = Ok (out ++ concat (map (fun r => firstn sz (nd t r)) rest), ol - length rest * sz)).
  { induction rest as [|r rest IH]; intros out ol Hlt Hl; cbn [foldM map concat length] in *.
    - rewrite app_nil_r. do 2 f_equal. lia.
    - replace (seedSizeBytes P <=? ol) with true by (fold sz; lia). cbn [c_assert bind].
      rewrite (rd_node n D s) by (auto; apply Hlt; left; auto). cbn [bind].
      rewrite slice0_ok by (unfold nd; rewrite (sh_nl _ _ _ _ Ht); [fold sz; lia|apply Hlt; left; auto]).
      cbn [bind]. fold sz. rewrite IH; [|intros; apply Hlt; right; auto|lia].
      rewrite <- app_assoc. do 2 f_equal. lia. }
  rewrite Hgen; auto.
  intros r Hr. apply Hin in Hr. apply Rv_ext in Hr; auto. apply (ext_lt n D r Hr).
Qed.

(** Rebuilding from any input of the right length. *)
Lemma reconstructSeeds_ok t rv input :
  shape n D sz t -> (forall x, hv t x = false) -> hide <> [] ->
  getRevealedNodes t hide = Ok rv -> revealed rv -> length input = length rv * sz ->
  exceeds_int (length input) = false ->
  exists t', reconstructSeeds E P t hide input salt rep = Ok (Some t') /\ shape n D sz t' /\
    (forall l, l < n -> (hv t' (nF D + l) = true <-> ~ In l hide)) /\
    (forall x, hv t' x = ext n D x && (contains rv x || (0 <? x) && hv t' (par x))) /\
    (forall j, j < length rv -> nd t' (nth j rv 0) = blk sz input j) /\
    (forall x, hv t' x = true -> ~ In x rv -> nd t' x = seed_half P x (seed_hash E P salt rep (nd t' (par x)) (par x))).
Proof.
  intros Ht Hh Hne Hrv Hr Hlen Hi. pose proof Hr as (Hnd & Hin & _).
  assert (Hlt : forall r, In r rv -> r < nN n D).
  { intros r Hr'. apply Hin in Hr'. apply Rv_ext in Hr'; auto. apply (ext_lt n D r Hr'). }
  unfold reconstructSeeds. rewrite Hi, Hrv. cbn [bind].
  destruct (put_revealed_ok n D sz rv t input 0 Ht Hnd Hlt) as (t1 & He & Hs1 & Hh1 & Hno1 & Hj1); [lia|].
  rewrite Nat.sub_0_r in He. fold sz. rewrite He. cbn [bind].
  assert (Hh1' : forall x, hv t1 x = contains rv x) by (intros x; rewrite Hh1, Hh; reflexivity).
  pose proof (expandSeeds_ok E P HE seed_pos n D Hn HnD salt rep Hsalt t1 Hs1) as Hx.
  apply ok_ex in Hx.
  2:{ intros x. rewrite Hh1', contains_In, Hin. apply Rv_ext; auto. }
  destruct Hx as (t' & Hx & Hs' & Hh' & Ho' & Hc'). rewrite Hx. cbn [bind].
  exists t'. split; [reflexivity|]. split; [auto|]. split; [|split; [|split]].
  - intros l Hl. rewrite (hv_leaf n D Hn HnD hide Hhide t' t1 Hh' l Hl). split.
    + intros (d & Hd & Hrd) Hlh. rewrite Hh1', contains_In, Hin in Hrd.
      apply Rv_not_hidden in Hrd; auto. apply Hrd. exists d. split; auto.
      apply in_map_iff. exists l. split; auto.
      destruct (anc_rng n D Hn HnD l d Hl Hd). pose proof (pow_pos (D - d)). lia.
    + intros Hnl. destruct (covered n D Hn HnD hide Hhide l Hl Hnl Hne) as (r & d & HR & Hd & Ha).
      exists d. split; auto. rewrite Hh1', contains_In, Hin, Ha. replace (r + 1 - 1) with r by lia. auto.
  - intros x. rewrite Hh' at 1. rewrite Hh1'. reflexivity.
  - intros j Hj. rewrite Ho'; [|rewrite Hh1', contains_In; apply nth_In; auto]. rewrite Hj1 by auto. reflexivity.
  - intros x Hx1 Hx2. apply Hc'; auto. rewrite Hh1'. apply contains_false. auto.
Qed.

(** Rebuilding from the opening of a full tree. *)
Lemma reconstruct_full root T t rv :
  full_seeds root T -> shape n D sz t -> (forall x, hv t x = false) -> hide <> [] ->
  getRevealedNodes t hide = Ok rv -> revealed rv ->
  exceeds_int (length rv * sz) = false ->
  exists t', reconstructSeeds E P t hide (concat (map (fun r => firstn sz (nd T r)) rv)) salt rep = Ok (Some t') /\
    shape n D sz t' /\
    (forall l, l < n -> (hv t' (nF D + l) = true <-> ~ In l hide)) /\
    (forall l, l < n -> ~ In l hide -> nd t' (nF D + l) = nd T (nF D + l)).
Proof.
  intros (Ts & Th & Tr & Tc) Ht Hh Hne Hrv Hr Hi. pose proof Hr as (Hnd & Hin & _).
  assert (Hlt : forall r, In r rv -> r < nN n D).
  { intros r Hr'. apply Hin in Hr'. apply Rv_ext in Hr'; auto. apply (ext_lt n D r Hr'). }
  assert (Hlm : forall x, In x (map (fun r => firstn sz (nd T r)) rv) -> length x = sz).
  { intros x Hx. apply in_map_iff in Hx. destruct Hx as (r & <- & Hr').
    rewrite firstn_length. unfold nd. rewrite (sh_nl _ _ _ _ Ts) by auto. lia. }
  set (input := concat _).
  assert (Hlen : length input = length rv * sz).
  { unfold input. rewrite (length_concat_const sz) by auto. rewrite map_length. reflexivity. }
  destruct (reconstructSeeds_ok t rv input) as (t' & He & Hs & Hl & Hh' & Hj & Hc); auto.
  { rewrite Hlen. auto. }
  exists t'. split; [auto|]. split; [auto|]. split; [auto|].
  intros l Hll Hnl.
  set (t1 := set_node t (t_nodes t) (map (contains rv) (seq 0 (nN n D)))).
  assert (Ht1 : forall x, x < nN n D -> hv t1 x = contains rv x).
  { intros x Hx. unfold hv, t1. cbn [set_node t_haveNode].
    rewrite (nth_indep _ false (contains rv 0)) by (rewrite map_length, seq_length; auto).
    rewrite map_nth, seq_nth by auto. reflexivity. }
  assert (Ht1o : forall x, nN n D <= x -> hv t1 x = false).
  { intros x Hx. unfold hv, t1. cbn [set_node t_haveNode]. apply nth_overflow. rewrite map_length, seq_length. auto. }
  apply (expand_unique E P) with (n := n) (D := D) (salt := salt) (rep := rep) (t := t1); auto.
  - intros x. rewrite Hh' at 1. destruct (Nat.lt_ge_cases x (nN n D)).
    + rewrite Ht1 by auto. reflexivity.
    + assert (Hf : ext n D x = false) by (unfold ext; lia). rewrite Hf. reflexivity.
  - intros x Hx. destruct (Nat.lt_ge_cases x (nN n D)); [|rewrite Ht1o in Hx by auto; discriminate].
    rewrite Ht1 in Hx by auto. apply contains_In in Hx.
    destruct (In_nth _ _ 0 Hx) as (j & Hjl & Hjx). rewrite <- Hjx, Hj by auto.
    unfold input. rewrite (blk_concat sz _ j []) by (auto; rewrite map_length; auto).
    rewrite (nth_indep _ [] (firstn sz (nd T 0))) by (rewrite map_length; auto).
    rewrite map_nth with (f := fun r => firstn sz (nd T r)). apply firstn_all2.
    unfold nd. rewrite (sh_nl _ _ _ _ Ts); auto. apply Hlt. apply nth_In. auto.
  - intros x Hx1 Hx2. apply Hc; auto. intros Hx. assert (x < nN n D) by auto.
    rewrite Ht1 in Hx2 by auto. apply contains_false in Hx2. auto.
  - apply Hl; auto.
Qed.

End Seeds.
