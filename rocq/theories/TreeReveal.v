(** Which nodes of a seed tree are revealed: getRevealedNodes (tree.c:235-291). *)

From Coq Require Import List NArith Arith Bool Lia ZifyBool ZifyNat ZifyN.
From Verif Require Import Base Params Env Spec Tree BaseFacts UtilFacts TreeShape TreeSeed.
Import ListNotations.

Lemma contains_In l v : contains l v = true <-> In v l.
Proof.
  unfold contains. rewrite existsb_exists. split.
  - intros (x & Hx & He). apply Nat.eqb_eq in He. subst. auto.
  - intros H. exists v. split; auto. apply Nat.eqb_refl.
Qed.

Lemma contains_false l v : contains l v = false <-> ~ In v l.
Proof. rewrite <- contains_In. destruct (contains l v); split; congruence. Qed.

Lemma NoDup_app_intro {A} (l1 l2 : list A) :
  NoDup l1 -> NoDup l2 -> (forall a, In a l1 -> In a l2 -> False) -> NoDup (l1 ++ l2).
Proof.
  induction l1 as [|x l1 IH]; intros H1 H2 H; auto. inversion H1; subst. cbn [app]. constructor.
  - rewrite in_app_iff. intros [Hi|Hi]; [auto|]. apply (H x); [left; auto|auto].
  - apply IH; auto. intros a Ha. apply H. right; auto.
Qed.

Lemma NoDup_app_r {A} (l1 l2 : list A) : NoDup (l1 ++ l2) -> NoDup l2.
Proof. induction l1; auto. cbn [app]. intros H. inversion H; auto. Qed.

Section Reveal.
Variables n D : nat.
Hypothesis Hn : 2 <= n.
Hypothesis HnD : n <= 2 ^ D.
Let M := 2 ^ D.

Let Mp : 0 < M := pow_pos D.

(** Heap number of the ancestor at height [d] of leaf [l]. *)
Definition anc (l d : nat) : nat := (M + l) / 2 ^ d.

Lemma anc_rng l d : l < n -> d <= D -> 2 ^ (D - d) <= anc l d < 2 * 2 ^ (D - d).
Proof. intros. eapply (anc_range n); eauto. unfold M in *. lia. Qed.

Lemma anc_S l d : anc l (S d) = anc l d / 2.
Proof. apply div_pow_S. Qed.

Lemma anc_ge2 l d : l < n -> d < D -> 2 <= anc l d.
Proof.
  intros Hl Hd. destruct (anc_rng l d Hl ltac:(lia)) as [H _].
  replace (D - d) with (S (D - d - 1)) in H by lia. rewrite pow_S in H.
  pose proof (pow_pos (D - d - 1)). lia.
Qed.

Lemma pow_le_M d : 2 ^ (D - d) <= M.
Proof. apply Nat.pow_le_mono_r; lia. Qed.

Lemma anc_lt2M l d : l < n -> d <= D -> anc l d < 2 * M.
Proof. intros Hl Hd. destruct (anc_rng l d Hl Hd). pose proof (pow_le_M d). lia. Qed.

Lemma anc_root l : l < n -> anc l D = 1.
Proof. intros Hl. destruct (anc_rng l D Hl ltac:(lia)). rewrite Nat.sub_diag in *. cbn in *. lia. Qed.

Lemma anc_0 l : anc l 0 = M + l.
Proof. unfold anc. change (2 ^ 0) with 1. apply Nat.div_1_r. Qed.

Lemma anc_exh l d : l < n -> d <= D -> exh n D (anc l d) = true.
Proof. intros. apply exh_anc; auto. fold M. lia. Qed.

Lemma path_up_ok l k d : l < n -> d + k = D -> 0 < k ->
  path_up k (anc l d - 1) = Ok (map (fun d => anc l d - 1) (seq d k)).
Proof.
  revert d; induction k as [|k IH]; intros d Hl Hd Hk; [lia|]. cbn [path_up seq map].
  pose proof (anc_ge2 l d Hl ltac:(lia)).
  rewrite getParent_ok by lia. replace (anc l d - 1 + 1) with (anc l d) by lia.
  rewrite <- anc_S. cbn [bind].
  destruct k as [|k].
  - replace (S d) with D by lia. rewrite anc_root by auto. reflexivity.
  - pose proof (anc_ge2 l (S d) Hl ltac:(lia)).
    replace (anc l (S d) - 1 =? 0) with false by lia.
    rewrite IH by lia. reflexivity.
Qed.

Definition sib (h : nat) : nat := if Nat.even h then h + 1 else h - 1.
Definition dsc (h : nat) : nat := if 2 * h + 1 =? M + n then 2 * h else h.

Lemma even_cases h : (Nat.even h = true /\ h = 2 * (h / 2)) \/ (Nat.even h = false /\ h = 2 * (h / 2) + 1).
Proof.
  destruct (half_cases h) as [H|H]; [left|right]; (split; [|exact H]); rewrite H.
  - rewrite Nat.even_mul. reflexivity.
  - rewrite Nat.add_1_r, Nat.even_succ, Nat.odd_mul. reflexivity.
Qed.

Lemma sib_half h : 2 <= h -> sib h / 2 = h / 2.
Proof.
  intros H. unfold sib. destruct (even_cases h) as [[-> He]|[-> He]].
  - rewrite He at 1. apply div2_succ.
  - rewrite He at 1. replace (2 * (h / 2) + 1 - 1) with (2 * (h / 2)) by lia. apply div2_mul.
Qed.

Lemma sib_or h y : 2 <= h -> y / 2 = h / 2 -> y = h \/ y = sib h.
Proof.
  intros H Hy. unfold sib. destruct (even_cases h) as [[-> He]|[-> He]], (even_cases y) as [[_ He']|[_ He']]; lia.
Qed.

Lemma sib_inv h : 2 <= h -> sib (sib h) = h /\ sib h <> h.
Proof.
  intros H. unfold sib. destruct (even_cases h) as [[-> He]|[-> He]].
  - destruct (even_cases (h + 1)) as [[-> He']|[-> He']]; lia.
  - destruct (even_cases (h - 1)) as [[-> He']|[-> He']]; lia.
Qed.

Lemma sib_rng h k : 2 ^ S k <= h < 2 * 2 ^ S k -> 2 ^ S k <= sib h < 2 * 2 ^ S k.
Proof.
  intros H. rewrite pow_S in *. unfold sib. destruct (even_cases h) as [[-> He]|[-> He]]; lia.
Qed.

(** [descend] *)
Lemma descend_ok sz t h fuel : shape n D sz t -> 0 < fuel -> 0 < h -> h < 2 * M -> exh n D h = true ->
  descend fuel t (h - 1) = Ok (dsc h - 1).
Proof.
  intros Ht Hf Hh0 Hh He.
  assert (Hstep : forall f h, 0 < h -> h < 2 * M -> exh n D h = true -> 2 * h + 1 <> M + n ->
    descend f t (h - 1) = Ok (h - 1)).
  { intros f y Hy0 Hy Hey Hne. unfold descend. 
    assert (Hr : exists b, hasRightChild t (y - 1) = Ok b /\ (b || isLeafNode t (y - 1)) = true).
    { unfold hasRightChild, isLeafNode. rewrite (sh_N _ _ _ _ Ht). unfold nN. fold M.
      destruct (Nat.ltb_spec (2 * (y - 1) + 2) (M - 1 + n)).
      - rewrite (tree_exists_ok n D sz) by auto. exists true. split; [|reflexivity].
        f_equal. unfold ext. replace (y - 1 + 1) with y by lia. rewrite Hey. unfold nN. fold M. lia.
      - exists false. split; [reflexivity|]. cbn [orb]. lia. }
    destruct Hr as (b & Hr1 & Hr2). destruct f; rewrite Hr1; cbn [bind]; rewrite Hr2; reflexivity. }
  unfold dsc. destruct (Nat.eqb_spec (2 * h + 1) (M + n)) as [Hd|Hd]; [|apply Hstep; auto].
  destruct fuel as [|f]; [lia|]. cbn [descend].
  assert (Hr : hasRightChild t (h - 1) = Ok false).
  { unfold hasRightChild. rewrite (sh_N _ _ _ _ Ht). unfold nN. fold M.
    replace (2 * (h - 1) + 2 <? M - 1 + n) with false by lia. reflexivity. }
  rewrite Hr. cbn [bind orb].
  assert (Hl : isLeafNode t (h - 1) = false).
  { unfold isLeafNode. rewrite (sh_N _ _ _ _ Ht). unfold nN. fold M. lia. }
  rewrite Hl. replace (2 * (h - 1) + 1) with (2 * h - 1) by lia.
  apply Hstep; try lia. rewrite exh_leaf; auto; fold M; unfold M in *; lia.
Qed.

Section Hide.
Variable hide : list nat.
Hypothesis Hhide : Forall (fun l => l < n) hide.

Let hide_lt l : In l hide -> l < n.
Proof. rewrite Forall_forall in Hhide. auto. Qed.

(** Heap numbers of the ancestors of hidden leaves at height [d]. *)
Definition lev (d : nat) : list nat := map (fun l => anc l d) hide.
Definition hidden (h : nat) : Prop := exists d, d <= D /\ In h (lev d).

(** What is revealed because of hidden leaf [l] at height [d]. *)
Definition rev_at (l d r : nat) : Prop :=
  exh n D (sib (anc l d)) = true /\ ~ In (sib (anc l d)) (lev d) /\ r = dsc (sib (anc l d)) - 1.
Definition Rv (r : nat) : Prop := exists l d, In l hide /\ d < D /\ rev_at l d r.

Lemma lev_rng d h : d <= D -> In h (lev d) -> 2 ^ (D - d) <= h < 2 * 2 ^ (D - d).
Proof. intros Hd H. apply in_map_iff in H. destruct H as (l & <- & Hl). apply anc_rng; auto. Qed.

Lemma rng_unique h a b : 2 ^ a <= h < 2 * 2 ^ a -> 2 ^ b <= h < 2 * 2 ^ b -> a = b.
Proof.
  intros Ha Hb. rewrite <- !pow_S in *. rewrite <- (Nat.log2_unique h a), <- (Nat.log2_unique h b); auto; lia.
Qed.

Lemma hidden_lev h d : d <= D -> 2 ^ (D - d) <= h < 2 * 2 ^ (D - d) -> hidden h -> In h (lev d).
Proof.
  intros Hd Hr (d' & Hd' & H). pose proof (lev_rng d' h Hd' H).
  assert (D - d = D - d') by (eapply rng_unique; eauto). replace d with d' by lia. auto.
Qed.

Lemma hidden_half h : 2 <= h -> hidden h -> hidden (h / 2).
Proof.
  intros Hh (d & Hd & H). pose proof (lev_rng d h Hd H) as Hr.
  exists (S d). split.
  - destruct (Nat.eq_dec d D) as [->|]; [|lia]. rewrite Nat.sub_diag in Hr. cbn in Hr. lia.
  - apply in_map_iff in H. destruct H as (l & <- & Hl). apply in_map_iff. exists l.
    split; [apply anc_S|auto].
Qed.

Lemma hidden_div q k j : k <= j -> 1 <= q / 2 ^ j -> hidden (q / 2 ^ k) -> hidden (q / 2 ^ j).
Proof.
  intros Hkj. replace j with (k + (j - k)) by lia. generalize (j - k). intros m.
  induction m as [|m IH]; intros H1 Hh; [rewrite Nat.add_0_r; auto|].
  rewrite Nat.add_succ_r, div_pow_S in *. apply hidden_half.
  - destruct (half_cases (q / 2 ^ (k + m))); lia.
  - apply IH; auto. destruct (half_cases (q / 2 ^ (k + m))); lia.
Qed.

Lemma rng_half h k : 2 ^ S k <= h < 2 * 2 ^ S k -> 2 ^ k <= h / 2 < 2 * 2 ^ k.
Proof. intros H. rewrite pow_S in H. destruct (half_cases h); lia. Qed.

(** Facts about revealed nodes. *)
Lemma Rv_facts r : Rv r ->
  let h := r + 1 in
  2 <= h < 2 * M /\ exh n D h = true /\ ~ hidden h /\ 2 * h + 1 <> M + n /\
  (hidden (h / 2) \/ (h + 1 = M + n /\ h = 2 * (h / 2) /\ hidden (h / 2 / 2))).
Proof.
  intros (l & d & Hl & Hd & He & Hnl & Hr). pose proof (hide_lt l Hl) as Hln.
  pose proof (anc_ge2 l d Hln Hd) as Hg.
  pose proof (anc_rng l d Hln ltac:(lia)) as Hrg.
  assert (Hrs : 2 ^ (D - d) <= sib (anc l d) < 2 * 2 ^ (D - d)).
  { replace (D - d) with (S (D - d - 1)) in * by lia. apply sib_rng. auto. }
  set (s := sib (anc l d)) in *.
  assert (Hnh : ~ hidden s).
  { intros Hh. apply Hnl. apply hidden_lev; auto; lia. }
  assert (Hhp : hidden (s / 2)).
  { unfold s. rewrite sib_half by auto. apply hidden_half; auto.
    exists d. split; [lia|]. apply in_map_iff. exists l. auto. }
  assert (Hs2 : 2 <= s).
  { replace (D - d) with (S (D - d - 1)) in Hrs by lia. rewrite pow_S in Hrs.
    pose proof (pow_pos (D - d - 1)). lia. }
  pose proof (pow_le_M d) as HM.
  unfold dsc in Hr. destruct (Nat.eqb_spec (2 * s + 1) (M + n)) as [Hds|Hds]; subst r; cbv zeta.
  - replace (2 * s - 1 + 1) with (2 * s) by lia. rewrite div2_mul.
    split; [unfold M in *; lia|]. split; [rewrite exh_leaf; auto; fold M; unfold M in *; lia|].
    split; [|split; [lia|]].
    + intros H. apply hidden_half in H; [|lia]. rewrite div2_mul in H. auto.
    + right. split; [lia|]. auto.
  - replace (s - 1 + 1) with s by lia. split; [lia|]. auto.
Qed.

Definition leaf_of (r : nat) : nat := (r + 1) * 2 ^ (D - Nat.log2 (r + 1)).

Lemma leaf_of_spec r : 1 <= r + 1 < 2 * M -> exh n D (r + 1) = true ->
  M <= leaf_of r < M + n /\ leaf_of r / 2 ^ (D - Nat.log2 (r + 1)) = r + 1.
Proof.
  intros Hr He. destruct (exh_leaf_below n D Hn HnD (r + 1)) as (k & Hk & Hrg & Hq & Hd); auto; try (unfold M in *; lia).
  assert (Hlog : D - Nat.log2 (r + 1) = k).
  { rewrite (Nat.log2_unique (r + 1) (D - k)); [lia|lia|]. rewrite pow_S. lia. }
  unfold leaf_of. rewrite Hlog. split; auto.
Qed.

Lemma leaf_of_inj r1 r2 : Rv r1 -> Rv r2 -> leaf_of r1 = leaf_of r2 -> r1 = r2.
Proof.
  assert (Hw : forall r1 r2, Rv r1 -> Rv r2 -> leaf_of r1 = leaf_of r2 ->
     D - Nat.log2 (r1 + 1) <= D - Nat.log2 (r2 + 1) -> r1 = r2).
  { clear r1 r2. intros r1 r2 H1 H2 Hl Hle.
    destruct (Rv_facts r1 H1) as (A1 & B1 & C1 & D1 & F1).
    destruct (Rv_facts r2 H2) as (A2 & B2 & C2 & D2 & F2). cbv zeta in *.
    destruct (leaf_of_spec r1) as [G1 K1]; auto; [lia|].
    destruct (leaf_of_spec r2) as [G2 K2]; auto; [lia|].
    rewrite <- Hl in K2. set (q := leaf_of r1) in *.
    set (k1 := D - Nat.log2 (r1 + 1)) in *. set (k2 := D - Nat.log2 (r2 + 1)) in *.
    destruct (Nat.eq_dec k1 k2) as [Hk|Hk]; [rewrite Hk in K1; lia|exfalso].
    destruct F1 as [F1|(F1 & F1' & F1'')].
    - rewrite <- K1, <- div_pow_S in F1. apply (hidden_div q (S k1) k2) in F1; try lia.
      rewrite K2 in F1. auto.
    - rewrite <- K1, <- !div_pow_S in F1''.
      destruct (Nat.eq_dec k2 (S k1)) as [Hk2|Hk2].
      + rewrite Hk2 in K2. rewrite div_pow_S, K1 in K2. lia.
      + apply (hidden_div q (S (S k1)) k2) in F1''; try lia. rewrite K2 in F1''. auto. }
  intros H1 H2 Hl. destruct (Nat.le_ge_cases (D - Nat.log2 (r1 + 1)) (D - Nat.log2 (r2 + 1))).
  - apply Hw; auto.
  - symmetry. apply Hw; auto.
Qed.

Lemma Rv_length rv : NoDup rv -> (forall r, In r rv -> Rv r) -> length rv <= n.
Proof.
  intros Hnd Hr. rewrite <- (map_length leaf_of), <- (seq_length n M).
  apply NoDup_incl_length.
  - revert Hr. clear -Hnd Hn HnD hide_lt Mp Hhide. intros Hr. induction Hnd as [|r rv Hnin Hnd IH]; cbn [map]; constructor.
    + intros Hin. apply in_map_iff in Hin. destruct Hin as (r' & Hl & Hin).
      apply leaf_of_inj in Hl; [subst; auto|apply Hr; right; auto|apply Hr; left; auto].
    + apply IH. intros; apply Hr; right; auto.
  - intros q Hq. apply in_map_iff in Hq. destruct Hq as (r & <- & Hin).
    destruct (Rv_facts r (Hr r Hin)) as (A1 & B1 & _). cbv zeta in *.
    destruct (leaf_of_spec r) as [G1 K1]; auto; [lia|]. apply in_seq. lia.
Qed.

(** Number of distinct ancestors at height [d]. *)
Definition cnt (d : nat) : nat := length (nodup Nat.eq_dec (lev d)).

(** The loop over one level. *)
Definition lev_inv (d : nat) (old pre rv : list nat) : Prop :=
  NoDup rv /\ (forall r, In r rv -> Rv r) /\
  (forall r, In r old -> In r rv) /\
  (forall l r, In l pre -> rev_at l d r -> In r rv) /\
  exists A, rv = old ++ map (fun s => dsc s - 1) A /\ length rv = length old + length A /\
    (forall a, In a A -> ~ In a (lev d) /\ In (a / 2) (lev (S d))).

Lemma lev_count d A : d < D -> NoDup (map (fun s => dsc s - 1) A) ->
  (forall a, In a A -> ~ In a (lev d) /\ In (a / 2) (lev (S d))) ->
  length A + cnt d <= 2 * cnt (S d).
Proof.
  intros Hd Hnd HA. unfold cnt.
  set (kids := flat_map (fun h => [2 * h; 2 * h + 1]) (nodup Nat.eq_dec (lev (S d)))).
  assert (Hk : length kids = 2 * length (nodup Nat.eq_dec (lev (S d)))).
  { unfold kids. generalize (nodup Nat.eq_dec (lev (S d))). intros ls. induction ls as [|a ls IH]; auto.
    cbn [flat_map]. rewrite app_length, IH. cbn [length]. lia. }
  rewrite <- Hk, <- app_length. apply NoDup_incl_length.
  - apply NoDup_app_intro.
    + eapply NoDup_map_inv; eauto.
    + apply NoDup_nodup.
    + intros a Ha Ha'. apply nodup_In in Ha'. apply (HA a); auto.
  - intros a Ha. unfold kids. apply in_flat_map.
    assert (H2 : In (a / 2) (lev (S d))).
    { apply in_app_or in Ha. destruct Ha as [Ha|Ha]; [apply HA; auto|].
      apply nodup_In in Ha. apply in_map_iff in Ha. destruct Ha as (l & <- & Hl).
      apply in_map_iff. exists l. rewrite anc_S. auto. }
    exists (a / 2). split; [apply nodup_In; auto|]. cbn [In]. destruct (half_cases a); lia.
Qed.

Lemma reveal_step_ok sz t d old pre l rv :
  shape n D sz t -> d < D -> In l hide -> lev_inv d old pre rv ->
  ok (reveal_step t (map (fun l => anc l d - 1) hide) rv (anc l d - 1)) (lev_inv d old (pre ++ [l])).
Proof.
  intros Ht Hd Hl (Iu & Ir & Io & Ip & A & Ia & Ia' & Iq).
  pose proof (hide_lt l Hl) as Hln.
  pose proof (anc_ge2 l d Hln Hd) as Hg. pose proof (anc_lt2M l d Hln ltac:(lia)) as Hlt.
  pose proof (anc_exh l d Hln ltac:(lia)) as Hea.
  pose proof (anc_rng l d Hln ltac:(lia)) as Hrg.
  assert (Hrs : 2 ^ (D - d) <= sib (anc l d) < 2 * 2 ^ (D - d)).
  { replace (D - d) with (S (D - d - 1)) in * by lia. apply sib_rng. auto. }
  pose proof (pow_le_M d) as HMd.
  assert (Hskip : (forall r, rev_at l d r -> In r rv) -> lev_inv d old (pre ++ [l]) rv).
  { intros Hs. split; [auto|]. split; [auto|]. split; [auto|]. split; [|exists A; auto].
    intros l' r Hl' Hr. apply in_app_or in Hl'. destruct Hl' as [Hl'|[->|[]]]; eauto. }
  unfold reveal_step.
  assert (Hlt' : anc l d < M + n) by (apply exh_lt; auto; unfold M in *; lia).
  assert (Hes : hasSibling t (anc l d - 1) = Ok (exh n D (sib (anc l d)))).
  { unfold hasSibling. rewrite (tree_exists_ok n D sz) by auto. cbn [bind].
    replace (ext n D (anc l d - 1)) with true.
    2:{ unfold ext. replace (anc l d - 1 + 1) with (anc l d) by lia. rewrite Hea. unfold nN. fold M. lia. }
    cbn [negb]. rewrite isLeftChild_ok by lia. cbn [bind].
    replace (anc l d - 1 + 1) with (anc l d) by lia. unfold sib in *.
    destruct (even_cases (anc l d)) as [[He Hh]|[He Hh]]; rewrite He in *.
    - rewrite (tree_exists_ok n D sz) by auto. f_equal. unfold ext.
      destruct (exh n D (anc l d + 1)) eqn:Ee; [|apply andb_false_r].
      apply exh_lt in Ee; auto; try (unfold M in *; lia). unfold nN. fold M in Ee |- *. lia.
    - f_equal. symmetry. replace (anc l d - 1) with (2 * (anc l d / 2)) by lia.
      rewrite exh_left; auto; try (fold M; lia). apply exh_half; auto; fold M; lia. }
  rewrite Hes. cbn [bind].
  destruct (exh n D (sib (anc l d))) eqn:Es; cbn [negb].
  2:{ apply Hskip. intros r (He & _). congruence. }
  assert (Hgs : getSibling t (anc l d - 1) = Ok (sib (anc l d) - 1)).
  { unfold getSibling. rewrite (sh_N _ _ _ _ Ht).
    replace (anc l d - 1 <? nN n D) with true by (unfold nN; fold M; lia).
    replace (anc l d - 1 =? 0) with false by lia. cbn [negb c_assert bind]. rewrite Hes. cbn [c_assert bind].
    rewrite isLeftChild_ok by lia. cbn [bind]. replace (anc l d - 1 + 1) with (anc l d) by lia.
    assert (Hlts : sib (anc l d) < M + n) by (apply exh_lt; auto; unfold M in *; lia).
    unfold sib in *. destruct (even_cases (anc l d)) as [[He Hh]|[He Hh]]; rewrite He in *.
    - replace (anc l d <? nN n D) with true by (unfold nN; fold M; lia). try reflexivity; f_equal; lia.
    - reflexivity. }
  rewrite Hgs. cbn [bind]. set (s := sib (anc l d)) in *.
  assert (Hs2 : 2 <= s).
  { replace (D - d) with (S (D - d - 1)) in Hrs by lia. rewrite pow_S in Hrs.
    pose proof (pow_pos (D - d - 1)). lia. }
  assert (Hcl : contains (map (fun l => anc l d - 1) hide) (s - 1) = true <-> In s (lev d)).
  { rewrite contains_In. unfold lev. rewrite !in_map_iff. split; intros (l' & H & Hin); exists l'; split; auto;
      pose proof (anc_ge2 l' d (hide_lt l' Hin) Hd); lia. }
  destruct (contains (map (fun l => anc l d - 1) hide) (s - 1)) eqn:Ec.
  { apply Hskip. intros r (_ & Hni & _). exfalso. apply Hni. apply Hcl. reflexivity. }
  assert (Hns : ~ In s (lev d)) by (intros H; apply Hcl in H; congruence).
  rewrite (descend_ok sz) by (auto; rewrite ?(sh_depth _ _ _ _ Ht); lia). cbn [bind].
  destruct (contains rv (dsc s - 1)) eqn:Er.
  { apply contains_In in Er. apply Hskip. intros r (_ & _ & ->). fold s. auto. }
  apply contains_false in Er.
  assert (HRv : Rv (dsc s - 1)) by (exists l, d; split; [auto|split; [auto|split; [auto|auto]]]).
  assert (Hnd : NoDup (rv ++ [dsc s - 1])).
  { apply NoDup_app_intro; auto. repeat constructor; auto. intros a Ha [<-|[]]. auto. }
  assert (Hall : forall r, In r (rv ++ [dsc s - 1]) -> Rv r).
  { intros r Hr. apply in_app_or in Hr. destruct Hr as [Hr|[<-|[]]]; auto. }
  pose proof (Rv_length _ Hnd Hall) as Hlen. rewrite app_length in Hlen. cbn [length] in Hlen.
  rewrite (sh_n _ _ _ _ Ht). replace (length rv <? n) with true by lia. cbn [guard bind ok].
  split; [auto|]. split; [auto|].
  split; [intros; apply in_or_app; auto|]. split.
  - intros l' r Hl' Hr. apply in_app_or in Hl'. destruct Hl' as [Hl'|[->|[]]].
    + apply in_or_app. left. eauto.
    + destruct Hr as (_ & _ & ->). apply in_or_app. right. left. reflexivity.
  - exists (A ++ [s]). rewrite map_app, app_assoc, <- Ia. split; [reflexivity|].
    rewrite !app_length, Ia'. split; [cbn [length]; lia|]. intros a Ha. apply in_app_or in Ha. destruct Ha as [Ha|[<-|[]]]; auto.
    split; auto. unfold s. rewrite sib_half by auto. rewrite <- anc_S. apply in_map_iff. exists l. auto.
Qed.

Fixpoint nsum (f : nat -> nat) (k : nat) : nat := match k with 0 => 0 | S k' => nsum f k' + f k' end.

Lemma getRevealedNodes_ok sz t : shape n D sz t ->
  ok (getRevealedNodes t hide) (fun rv =>
    NoDup rv /\ (forall r, In r rv <-> Rv r) /\
    length rv <= nsum (fun d => 2 * cnt (S d) - cnt d) D).
Proof.
  intros Ht. unfold getRevealedNodes. rewrite (sh_depth _ _ _ _ Ht).
  replace (D + 1 - 1) with D by lia.
  pose proof (D_pos n D Hn HnD) as HD. replace (0 <? D) with true by lia. cbn [guard bind].
  rewrite (mapM_pure _ (fun l => map (fun d => anc l d - 1) (seq 0 D))).
  2:{ intros l Hl. rewrite (firstLeaf_eq n D sz) by auto. unfold nF. fold M.
      rewrite <- path_up_ok by (auto; lia). f_equal. rewrite anc_0. lia. }
  cbn [bind].
  set (I := fun d rv => NoDup rv /\ (forall r, In r rv -> Rv r) /\
     (forall l d' r, In l hide -> d' < d -> rev_at l d' r -> In r rv) /\
     length rv <= nsum (fun d => 2 * cnt (S d) - cnt d) d).
  apply ok_mono with (Q := I (0 + D)).
  - apply ok_for with (I := I).
    + split; [constructor|]. split; [intros r []|]. split; [intros; lia|]. cbn. lia.
    + intros d rv Hd (Iu & Ir & Ip & Il).
      rewrite (mapM_pure _ (fun p => nth d p 0)).
      2:{ intros p Hp. apply in_map_iff in Hp. destruct Hp as (l & <- & Hl).
          apply rd_ok. rewrite map_length, seq_length. lia. }
      cbn [bind]. rewrite map_map.
      rewrite (map_ext_in _ (fun l => anc l d - 1)).
      2:{ intros l Hl. rewrite (nth_indep _ 0 (anc l 0 - 1)) by (rewrite map_length, seq_length; lia).
          rewrite map_nth with (f := fun d => anc l d - 1). rewrite seq_nth by lia. reflexivity. }
      set (L := map (fun l => anc l d - 1) hide).
      apply ok_mono with (Q := lev_inv d rv hide).
      * assert (Hgen : forall post pre rv', hide = pre ++ post -> lev_inv d rv pre rv' ->
          ok (foldM (reveal_step t L) (map (fun l => anc l d - 1) post) rv') (lev_inv d rv hide)).
        { induction post as [|l post IH]; intros pre rv' Hh Hi.
          - rewrite app_nil_r in Hh. subst pre. exact Hi.
          - cbn [map foldM]. eapply ok_step.
            + apply (reveal_step_ok sz); eauto; [lia|]. rewrite Hh. apply in_or_app. right. left. auto.
            + intros rv'' Hi'. apply (IH (pre ++ [l])); auto. rewrite <- app_assoc. auto. }
        apply (Hgen hide []); auto.
        split; [auto|]. split; [auto|]. split; [auto|]. split; [intros ? ? []|].
        exists []. rewrite app_nil_r. cbn [length]. split; [auto|]. split; [lia|]. intros a [].
      * intros rv' (Ju & Jr & Jo & Jp & A & Ja & Ja' & Jq). split; [auto|]. split; [auto|]. split.
        -- intros l d' r Hl Hd' Hr. destruct (Nat.eq_dec d' d) as [->|]; eauto. apply Jo. apply (Ip l d'); auto. lia.
        -- cbn [nsum]. rewrite Ja'. rewrite Ja in Ju.
           apply NoDup_app_r in Ju. apply (lev_count d A ltac:(lia)) in Ju; auto. lia.
  - intros rv (Iu & Ir & Ip & Il). split; [auto|]. split; [|auto].
    intros r. split; [auto|]. intros (l & d & Hl & Hd & Hr). apply (Ip l d); auto.
Qed.

(** Revealed nodes are known to lie below hidden ancestors only. *)
Lemma Rv_not_hidden r : Rv r -> ~ hidden (r + 1).
Proof. intros H. apply (Rv_facts r H). Qed.

Lemma Rv_ext r : Rv r -> ext n D r = true.
Proof.
  intros H. destruct (Rv_facts r H) as (A & B & _). cbv zeta in *. unfold ext. rewrite B.
  apply exh_lt in B; auto; try (unfold M in *; lia). unfold nN. fold M in B |- *. lia.
Qed.

(** Every non-hidden leaf is below a revealed node. *)
Lemma covered l : l < n -> ~ In l hide -> hide <> [] ->
  exists r d, Rv r /\ d <= D /\ anc l d = r + 1.
Proof.
  intros Hl Hnin Hne.
  assert (H0 : ~ hidden (anc l 0)).
  { intros Hh. apply hidden_lev with (d := 0) in Hh; [|lia|apply anc_rng; auto; lia].
    apply in_map_iff in Hh. destruct Hh as (l' & He & Hin). rewrite !anc_0 in He.
    assert (l' = l) by lia. subst. auto. }
  assert (HDh : hidden (anc l D)).
  { assert (Hx : exists l0, In l0 hide).
    { clear - Hne. destruct hide as [|l0 rest]; [congruence|]. exists l0. left; auto. }
    destruct Hx as (l0 & Hx). exists D. split; [lia|].
    rewrite anc_root by auto. apply in_map_iff. exists l0. split; [|auto].
    apply anc_root. auto. }
  assert (Hfind : forall k, k <= D -> ~ hidden (anc l (D - k)) ->
     exists d, d < D /\ ~ hidden (anc l d) /\ hidden (anc l (S d))).
  { induction k as [|k IH]; intros Hk Hkn.
    - rewrite Nat.sub_0_r in Hkn. contradiction.
    - destruct (in_dec Nat.eq_dec (anc l (D - k)) (lev (D - k))) as [Hi|Hi].
      + exists (D - S k). split; [lia|]. split; auto. replace (S (D - S k)) with (D - k) by lia.
        exists (D - k). split; [lia|auto].
      + apply IH; [lia|]. intros Hh. apply Hi. apply hidden_lev; auto; [lia|]. apply anc_rng; auto; lia. }
  destruct (Hfind D) as (d & Hd & Hnh & Hh); [lia|rewrite Nat.sub_diag; auto|].
  pose proof (anc_rng l (S d) Hl ltac:(lia)) as Hrg.
  apply (hidden_lev _ (S d)) in Hh; [|lia|auto].
  apply in_map_iff in Hh. destruct Hh as (l' & He & Hin).
  pose proof (hide_lt l' Hin) as Hl'. rewrite !anc_S in He.
  destruct (sib_or (anc l' d) (anc l d)) as [Heq|Heq]; [apply anc_ge2; auto|auto| |].
  { exfalso. apply Hnh. exists d. split; [lia|]. rewrite Heq. apply in_map_iff. exists l'. auto. }
  assert (HR : Rv (dsc (anc l d) - 1)).
  { exists l', d. split; [auto|]. split; [auto|]. unfold rev_at. rewrite <- Heq. split; [apply anc_exh; auto; lia|].
    split; [|auto]. intros H. apply Hnh. exists d. split; [lia|auto]. }
  exists (dsc (anc l d) - 1). pose proof (anc_ge2 l d Hl Hd).
  unfold dsc in *. destruct (Nat.eqb_spec (2 * anc l d + 1) (M + n)) as [Hdd|Hdd].
  - exists 0. split; [auto|]. split; [lia|]. rewrite anc_0.
    assert (d = 1).
    { pose proof (anc_rng l d Hl ltac:(lia)) as Hr.
      destruct d as [|[|d]]; auto; exfalso.
      - rewrite anc_0 in Hdd. lia.
      - replace (D - S (S d)) with (D - S (S d)) in Hr by lia.
        assert (HMM : 2 * (2 * 2 ^ (D - S (S d))) <= M).
        { unfold M. rewrite <- !pow_S. apply Nat.pow_le_mono_r; lia. }
        lia. }
    subst d. rewrite anc_S, anc_0 in *. destruct (half_cases (M + l)); lia.
  - exists d. split; [auto|]. split; [lia|lia].
Qed.

(** A leaf is known after expansion exactly when an ancestor was. *)
Lemma hv_leaf (s t : tree) :
  (forall x, hv s x = ext n D x && (hv t x || (0 <? x) && hv s (par x))) ->
  forall l, l < n -> (hv s (nF D + l) = true <-> exists d, d <= D /\ hv t (anc l d - 1) = true).
Proof.
  intros Hs l Hl.
  assert (Hup : forall k, k <= D ->
    (hv s (anc l (D - k) - 1) = true <-> exists d, D - k <= d <= D /\ hv t (anc l d - 1) = true)).
  { induction k as [|k IH]; intros Hk.
    - rewrite Nat.sub_0_r, anc_root by auto. rewrite Hs. change (1 - 1) with 0.
      assert (He : ext n D 0 = true).
      { unfold ext, nN. fold M. rewrite exh_root by auto. lia. }
      rewrite He. cbn [andb Nat.ltb Nat.leb orb]. rewrite orb_false_r. split.
      + intros H. exists D. rewrite anc_root by auto. split; [lia|auto].
      + intros (d & Hd & H). replace d with D in H by lia. rewrite anc_root in H; auto.
    - pose proof (anc_ge2 l (D - S k) Hl ltac:(lia)) as Hg.
      rewrite Hs. unfold par. replace (anc l (D - S k) - 1 + 1) with (anc l (D - S k)) by lia.
      rewrite <- anc_S. replace (S (D - S k)) with (D - k) by lia.
      assert (He : ext n D (anc l (D - S k) - 1) = true).
      { unfold ext. replace (anc l (D - S k) - 1 + 1) with (anc l (D - S k)) by lia.
        pose proof (anc_exh l (D - S k) Hl ltac:(lia)) as Hx. rewrite Hx.
        apply exh_lt in Hx; auto; [unfold nN; fold M in Hx |- *; lia|lia|].
        pose proof (anc_lt2M l (D - S k) Hl ltac:(lia)). unfold M in *. lia. }
      rewrite He. replace (0 <? anc l (D - S k) - 1) with true by lia. cbn [andb].
      rewrite orb_true_iff, IH by lia. split.
      + intros [H|(d & Hd & H)]; [exists (D - S k); split; [lia|auto]|exists d; split; [lia|auto]].
      + intros (d & Hd & H). destruct (Nat.eq_dec d (D - S k)) as [->|]; [left; auto|].
        right. exists d. split; [lia|auto]. }
  specialize (Hup D ltac:(lia)). rewrite Nat.sub_diag, anc_0 in Hup.
  replace (M + l - 1) with (nF D + l) in Hup by (unfold nF; fold M; lia).
  rewrite Hup. split; intros (d & Hd & H); exists d; (split; [lia|auto]).
Qed.

End Hide.
End Reveal.
