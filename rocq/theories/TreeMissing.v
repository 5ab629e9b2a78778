(** Which nodes an opening of a Merkle tree reveals (tree.c:400-484). *)

From Coq Require Import List NArith Arith Bool Lia ZifyBool ZifyNat ZifyN.
From Verif Require Import Base Params Env Spec Tree BaseFacts UtilFacts TreeShape TreeSeed TreeReveal TreeOpen.
Import ListNotations.

(** [lia] on the hypotheses about natural numbers only. *)
Ltac nlia :=
  repeat match goal with
         | H : @eq bool _ _ |- _ => clear H
         | H : forall _, _ |- _ => clear H
         end; lia.

Section Missing0.
Variables (n D : nat).
Hypothesis Hn : 2 <= n.
Hypothesis HnD : n <= 2 ^ D.

Lemma ext_child_nonleaf p : ext n D (2 * p + 1) = true -> ext n D p = true /\ p + 1 < 2 ^ D.
Proof.
  intros H. assert (Hp : ext n D p = true).
  { rewrite <- (par_left p). apply ext_par; auto. lia. }
  split; auto. apply ext_lt in H. unfold nN in H. pose proof (pow_pos D). lia.
Qed.

Lemma ext_right_left p : ext n D (2 * p + 2) = true -> ext n D (2 * p + 1) = true.
Proof.
  intros H. pose proof (ext_par n D Hn HnD (2 * p + 2) ltac:(lia) H) as Hp. rewrite par_right in Hp.
  pose proof (ext_lt n D _ H) as Hl. pose proof (pow_pos D). unfold nN in Hl.
  unfold ext in *. apply andb_true_iff in Hp. destruct Hp as [_ Hp].
  replace (2 * p + 1 + 1) with (2 * (p + 1)) by lia. rewrite exh_left; auto; [|lia|lia].
  rewrite Hp. unfold nN. lia.
Qed.

Lemma ext_leaf l : l < n -> ext n D (nF D + l) = true.
Proof.
  intros Hl. unfold ext, nN, nF. pose proof (pow_pos D). rewrite exh_leaf; auto; lia.
Qed.

Lemma ext_nonleaf_left p : p + 1 < 2 ^ D -> ext n D (2 * p + 1) = ext n D p.
Proof.
  intros Hp. destruct (ext n D p) eqn:Ep.
  - unfold ext in *. apply andb_true_iff in Ep. destruct Ep as [_ Ep].
    replace (2 * p + 1 + 1) with (2 * (p + 1)) by lia. rewrite exh_left by (auto; lia). rewrite Ep.
    rewrite <- (exh_left n D Hn HnD) in Ep by lia. apply exh_lt in Ep; auto; try lia. unfold nN. lia.
  - destruct (ext n D (2 * p + 1)) eqn:El; auto. apply ext_child_nonleaf in El. destruct El. congruence.
Qed.

Lemma leaf_no_kid l : ext n D (2 * (nF D + l) + 1) = false.
Proof. unfold ext, nF, nN. pose proof (pow_pos D). lia. Qed.

Lemma par_anc l d : l < n -> d < D -> par (anc D l d - 1) = anc D l (S d) - 1.
Proof.
  intros Hl Hd. pose proof (anc_ge2 n D Hn HnD l d Hl Hd). unfold par.
  replace (anc D l d - 1 + 1) with (anc D l d) by lia. rewrite <- anc_S. reflexivity.
Qed.

Lemma ext_anc l d : l < n -> d <= D -> ext n D (anc D l d - 1) = true.
Proof.
  intros Hl Hd. pose proof (anc_exh n D Hn HnD l d Hl Hd) as Hx.
  pose proof (anc_rng n D Hn HnD l d Hl Hd). pose proof (pow_pos (D - d)).
  pose proof (anc_lt2M n D Hn HnD l d Hl Hd).
  unfold ext. replace (anc D l d - 1 + 1) with (anc D l d) by lia. rewrite Hx.
  apply exh_lt in Hx; auto; try lia. unfold nN. lia.
Qed.

(** An existing node is the ancestor of a leaf. *)
Lemma ext_anc_of x : ext n D x = true -> exists l d, l < n /\ d <= D /\ anc D l d = x + 1.
Proof.
  intros Ex. pose proof (ext_lt n D x Ex) as Hl. unfold ext in Ex. apply andb_true_iff in Ex. destruct Ex as [_ Ex].
  unfold nN in Hl.
  destruct (exh_leaf_below n D Hn HnD (x + 1)) as (k & Hk & Hr & Hq & Hd); auto; try lia.
  exists ((x + 1) * 2 ^ k - 2 ^ D), k. split; [lia|]. split; [auto|].
  unfold anc. replace (2 ^ D + ((x + 1) * 2 ^ k - 2 ^ D)) with ((x + 1) * 2 ^ k) by lia. auto.
Qed.


(** A node with a hidden parent that is not hidden has a hidden sibling. *)
Lemma hidden_half_child hide : Forall (fun l => l < n) hide -> forall h, 2 <= h < 2 * 2 ^ D -> hidden D hide (h / 2) -> ~ hidden D hide h ->
  exists l d, In l hide /\ d < D /\ anc D l d = sib h.
Proof.
  intros Hhide h Hh (d & Hd & Hin) Hnh. pose proof (lev_rng n D Hn HnD hide Hhide d _ Hd Hin) as Hr.
  apply in_map_iff in Hin. destruct Hin as (l & Ha & Hl).
  assert (Hln : l < n) by (rewrite Forall_forall in Hhide; auto).
  destruct d as [|d].
  - rewrite Nat.sub_0_r in Hr. destruct (half_cases h); lia.
  - exists l, d. split; [auto|]. split; [lia|].
    destruct (sib_or n D Hn HnD h (anc D l d)) as [He|He]; auto; [lia|rewrite <- anc_S; auto|].
    exfalso. apply Hnh. exists d. split; [lia|]. apply in_map_iff. exists l. auto.
Qed.

(** Some tree of this shape. *)
Lemma createTree_any : exists t, shape n D 0 t.
Proof.
  exists (mkTree (D + 1) (repeat [] (nN n D)) 0 (repeat false (nN n D))
           (map (fun i => exh n D (i + 1)) (seq 0 (nN n D))) (nN n D) n).
  split; cbn [t_depth t_numNodes t_numLeaves t_dataSize t_nodes t_haveNode t_exists];
    rewrite ?repeat_length, ?map_length, ?seq_length; auto.
  - intros i Hi. rewrite (nth_indep _ _ (exh n D (0 + 1))) by (rewrite map_length, seq_length; auto).
    rewrite (map_nth (fun i => exh n D (i + 1))). rewrite seq_nth by auto. reflexivity.
  - intros i Hi. rewrite nth_repeat. reflexivity.
Qed.

(** ** Missing leaves *)
Section Missing.
Variable miss : list nat.
Hypothesis Hmiss : Forall (fun l => l < n) miss.

Let miss_lt l : In l miss -> l < n.
Proof. rewrite Forall_forall in Hmiss. auto. Qed.

(** What mark_missing computes. *)
Definition missing_spec (m : nat -> bool) : Prop :=
  m 0 = false /\
  (forall l, l < n -> m (nF D + l) = contains miss l) /\
  (forall x, 0 < x -> x + 1 < 2 ^ D ->
     m x = ext n D x && m (2 * x + 1) && (negb (ext n D (2 * x + 2)) || m (2 * x + 2))).

Lemma mark_missing_ok s t : shape n D s t ->
  ok (mark_missing t miss) (fun m => length m = nN n D /\ missing_spec (fun x => nth x m false)).
Proof.
  intros Ht. pose proof (pow_pos D) as HM.
  assert (HnF : nF D + n = nN n D) by (unfold nF, nN; lia).
  assert (HF1 : 1 <= nF D).
  { unfold nF. lia. }
  unfold mark_missing. rewrite (sh_N _ _ _ _ Ht).
  apply ok_step with (Q := fun m => length m = nN n D /\ forall x, nth x m false = (nF D <=? x) && contains miss (x - nF D)).
  { set (I := fun (pre : list nat) (m : list bool) => length m = nN n D /\
        forall x, nth x m false = (nF D <=? x) && contains pre (x - nF D)).
    apply ok_foldM with (I := I).
    - split; [apply repeat_length|]. intros x. cbn [contains existsb]. rewrite andb_false_r.
      destruct (Nat.lt_ge_cases x (nN n D)); [apply nth_repeat|apply nth_overflow; rewrite repeat_length; auto].
    - intros pre l post m Hl (Il & In). rewrite (firstLeaf_eq n D s) by auto.
      assert (Hll : l < n) by (apply miss_lt; rewrite Hl; apply in_or_app; right; left; auto).
      rewrite wr_ok by lia. cbn [ok]. split; [rewrite length_list_set; auto|].
      intros x. rewrite nth_list_set by lia. rewrite In. unfold contains. rewrite existsb_app. cbn [existsb].
      rewrite orb_false_r. destruct (Nat.eqb_spec x (nF D + l)) as [->|].
      + replace (nF D + l - nF D) with l by lia. rewrite Nat.eqb_refl, orb_true_r. lia.
      + destruct (Nat.leb_spec (nF D) x); cbn [andb]; auto.
        replace (x - nF D =? l) with false by lia. rewrite orb_false_r. reflexivity. }
  intros m0 (Hl0 & Hn0).
  destruct (lastNonLeaf_ok n D Hn HnD s t Ht) as (L & HL & HL1 & HL2).
  rewrite (sh_N _ _ _ _ Ht) in HL. rewrite HL. cbn [bind].
  set (I := fun i (m : list bool) => length m = nN n D /\ nth 0 m false = false /\
     (forall l, l < n -> nth (nF D + l) m false = contains miss l) /\
     (forall x, 0 < x -> x < nF D -> nth x m false =
        (i <? x) && ext n D x && nth (2 * x + 1) m false && (negb (ext n D (2 * x + 2)) || nth (2 * x + 2) m false))).
  apply ok_mono with (Q := I 0).
  - apply ok_down with (I := I).
    + split; [auto|]. split; [rewrite Hn0; lia|]. split.
      * intros l Hl. rewrite Hn0. replace (nF D + l - nF D) with l by lia. lia.
      * intros x Hx Hx2. rewrite Hn0. replace (nF D <=? x) with false by lia. cbn [andb].
        destruct (Nat.ltb_spec L x) as [HLx|]; [|reflexivity].
        assert (Ex : ext n D x = false).
        { destruct (ext n D x) eqn:Ex; auto. exfalso.
          rewrite <- ext_nonleaf_left in Ex by (unfold nF in *; lia). apply ext_lt in Ex. unfold nN in Ex.
          assert ((2 * (x + 1)) / 2 <= (2 ^ D + n - 1) / 2) by (apply Nat.div_le_mono; lia).
          rewrite div2_mul in H. lia. }
        rewrite Ex. reflexivity.
    + intros i m Hi (Il & I0 & If & Ix).
      assert (HiF : i < nF D).
      { unfold nF, nN in *. lia. }
      rewrite (tree_exists_ok n D s) by auto. cbn [bind].
      assert (Hset : forall v m', v = ext n D i && nth (2 * i + 1) m false && (negb (ext n D (2 * i + 2)) || nth (2 * i + 2) m false) ->
         m' = (if v then list_set m i true else m) -> I (i - 1) m').
      { intros v m' Hv ->.
        assert (Hnx : forall x, nth x (if v then list_set m i true else m) false = if x =? i then v else nth x m false).
        { intros x. destruct v.
          - rewrite nth_list_set by (unfold nN, nF in *; lia). reflexivity.
          - destruct (Nat.eqb_spec x i) as [->|]; auto. rewrite Ix by lia. replace (i <? i) with false by lia. reflexivity. }
        split; [destruct v; rewrite ?length_list_set; auto|]. rewrite !Hnx.
        split; [replace (0 =? i) with false by lia; auto|]. split.
        - intros l Hl. rewrite Hnx. replace (nF D + l =? i) with false by lia. auto.
        - intros x Hx Hx2. rewrite !Hnx. replace (2 * x + 1 =? i) with (2 * x + 1 =? i) by reflexivity.
          destruct (Nat.eqb_spec x i) as [->|Hxi].
          + replace (i - 1 <? i) with true by lia. replace (2 * i + 1 =? i) with false by lia.
            replace (2 * i + 2 =? i) with false by lia. exact Hv.
          + rewrite Ix by auto.
            destruct (Nat.ltb_spec i x).
            * replace (i - 1 <? x) with true by lia. replace (2 * x + 1 =? i) with false by lia.
              replace (2 * x + 2 =? i) with false by lia. reflexivity.
            * replace (i - 1 <? x) with false by lia. reflexivity. }
      destruct (ext n D i) eqn:Ei; cbn [negb].
      2:{ cbn [ok]. apply (Hset false); auto. }
      rewrite (tree_exists_ok n D s) by auto. cbn [bind].
      rewrite (rd_ok _ _ false) by lia. cbn [bind].
      destruct (ext n D (2 * i + 2)) eqn:Er.
      * destruct (nth (2 * i + 1) m false) eqn:Ml.
        -- rewrite (rd_ok _ _ false) by (rewrite Il; apply ext_lt; auto). cbn [bind].
           destruct (nth (2 * i + 2) m false) eqn:Mr.
           ++ rewrite wr_ok by lia. cbn [ok]. apply (Hset true); auto.
           ++ cbn [ok]. apply (Hset false); auto.
        -- cbn [ok]. apply (Hset false); auto.
      * destruct (nth (2 * i + 1) m false) eqn:Ml.
        -- rewrite wr_ok by lia. cbn [ok]. apply (Hset true); auto.
        -- cbn [ok]. apply (Hset false); auto.
  - intros m (Il & I0 & If & Ix). split; [auto|]. split; [auto|]. split; [auto|].
    intros x Hx Hx2. rewrite Ix by (unfold nF; lia). replace (0 <? x) with true by lia. reflexivity.
Qed.

Section WithM.
Variable m : nat -> bool.
Hypothesis Hm : missing_spec m.

Lemma m_ext x : x < nN n D -> m x = true -> ext n D x = true.
Proof.
  destruct Hm as (M0 & Ml & Mx). intros Hx Hmx. destruct (Nat.eq_dec x 0) as [->|]; [congruence|].
  destruct (Nat.lt_ge_cases x (nF D)).
  - rewrite Mx in Hmx by (unfold nF in *; lia). lia.
  - replace x with (nF D + (x - nF D)) by lia. apply ext_leaf. unfold nN, nF in *. lia.
Qed.

(** Children of a missing node are missing. *)
Lemma m_down x : 0 < x -> ext n D x = true -> m (par x) = true -> m x = true.
Proof.
  destruct Hm as (M0 & Ml & Mx). intros Hx Ex Hmx.
  pose proof (ext_lt n D x Ex) as HxN.
  destruct (Nat.eq_dec (par x) 0) as [H0|H0]; [congruence|].
  rewrite Mx in Hmx; [|lia|].
  - destruct (par_cases x Hx) as [He|He]; rewrite <- He in Hmx; [lia|]. rewrite Ex in Hmx. cbn in Hmx. lia.
  - destruct (par_cases x Hx); unfold nN in HxN; lia.
Qed.

Definition Rm (r : nat) : Prop := 0 < r /\ ext n D r = true /\ m r = true /\ m (par r) = false.

(** If an ancestor of a leaf is missing then so is everything on the path. *)
Lemma m_path l d d' : l < n -> d' <= d -> d <= D -> m (anc D l d - 1) = true -> m (anc D l d' - 1) = true.
Proof.
  intros Hl Hdd Hd Hmd. remember (d - d') as k. revert d' Hdd Heqk.
  induction k as [|k IH]; intros d' Hdd Hk.
  - replace d' with d by lia. auto.
  - apply m_down.
    + pose proof (anc_ge2 n D Hn HnD l d' Hl ltac:(lia)). lia.
    + apply ext_anc; auto; lia.
    + rewrite par_anc by (auto; lia). apply IH; lia.
Qed.

Lemma Rm_leaf_inj r1 r2 : Rm r1 -> Rm r2 -> leaf_of D r1 = leaf_of D r2 -> r1 = r2.
Proof.
  assert (Hw : forall r1 r2, Rm r1 -> Rm r2 -> leaf_of D r1 = leaf_of D r2 ->
     D - Nat.log2 (r1 + 1) <= D - Nat.log2 (r2 + 1) -> r1 = r2).
  { clear r1 r2. intros r1 r2 (A1 & B1 & C1 & D1) (A2 & B2 & C2 & D2) Hl Hle.
    pose proof (ext_lt n D _ B1) as L1. pose proof (ext_lt n D _ B2) as L2. unfold nN in L1, L2.
    unfold ext in B1, B2. apply andb_true_iff in B1, B2. destruct B1 as [_ B1], B2 as [_ B2].
    destruct (leaf_of_spec n D Hn HnD miss Hmiss r1) as [G1 K1]; auto; [lia|].
    destruct (leaf_of_spec n D Hn HnD miss Hmiss r2) as [G2 K2]; auto; [lia|].
    rewrite <- Hl in K2. set (q := leaf_of D r1) in *.
    assert (Ha : forall d, anc D (q - 2 ^ D) d = q / 2 ^ d).
    { clear - G1. intros d. unfold anc. f_equal. lia. }
    rewrite <- Ha in K1, K2.
    set (k1 := D - Nat.log2 (r1 + 1)) in *. set (k2 := D - Nat.log2 (r2 + 1)) in *.
    destruct (Nat.eq_dec k1 k2) as [Hk|Hk]; [rewrite Hk in K1; lia|exfalso].
    assert (Hp : par r1 = anc D (q - 2 ^ D) (S k1) - 1).
    { rewrite anc_S, K1. reflexivity. }
    assert (m (par r1) = true); [|congruence].
    rewrite Hp. apply m_path with (d := k2); try lia. rewrite K2. replace (r2 + 1 - 1) with r2 by lia. auto. }
  intros H1 H2 Hl. destruct (Nat.le_ge_cases (D - Nat.log2 (r1 + 1)) (D - Nat.log2 (r2 + 1))).
  - apply Hw; auto.
  - symmetry. apply Hw; auto.
Qed.

Lemma Rm_length rv : NoDup rv -> (forall r, In r rv -> Rm r) -> length rv <= n.
Proof.
  intros Hnd Hr. rewrite <- (map_length (leaf_of D)), <- (seq_length n (2 ^ D)).
  apply NoDup_incl_length.
  - induction Hnd as [|r rv Hnin Hnd IH]; cbn [map]; constructor.
    + intros Hin. apply in_map_iff in Hin. destruct Hin as (r' & Hl & Hin).
      apply Rm_leaf_inj in Hl; [subst; auto|apply Hr; right; auto|apply Hr; left; auto].
    + apply IH. intros; apply Hr; right; auto.
  - intros q Hq. apply in_map_iff in Hq. destruct Hq as (r & <- & Hin).
    destruct (Hr r Hin) as (A & B & _). pose proof (ext_lt n D _ B) as L. unfold nN in L.
    unfold ext in B. apply andb_true_iff in B. destruct B as [_ B].
    destruct (leaf_of_spec n D Hn HnD miss Hmiss r) as [G K]; auto; [lia|]. apply in_seq. lia.
Qed.

Lemma highest_missing_ok l ml : l < n -> length ml = nN n D -> (forall x, nth x ml false = m x) ->
  forall fuel d, d < D -> D - d <= fuel -> m (anc D l d - 1) = true ->
  exists d', d <= d' < D /\ highest_missing fuel ml (anc D l d - 1) = Ok (Some (anc D l d' - 1)) /\
    m (anc D l d' - 1) = true /\ m (anc D l (S d') - 1) = false.
Proof.
  intros Hl Hml Hmm. destruct Hm as (M0 & Ml & Mx).
  induction fuel as [|fuel IH]; intros d Hd Hf Hmd; [lia|]. cbn [highest_missing].
  pose proof (anc_ge2 n D Hn HnD l d Hl Hd) as Hg. rewrite getParent_ok by lia.
  change ((anc D l d - 1 + 1) / 2 - 1) with (par (anc D l d - 1)). rewrite par_anc by auto. cbn [bind].
  rewrite (rd_ok _ _ false) by (rewrite Hml; apply ext_lt; apply ext_anc; auto; lia).
  cbn [bind]. rewrite Hmm. destruct (m (anc D l (S d) - 1)) eqn:Hs; cbn [negb].
  - destruct (Nat.eq_dec (S d) D) as [He|He].
    + rewrite He, (anc_root n D Hn HnD l Hl) in Hs. change (1 - 1) with 0 in Hs. congruence.
    + pose proof (anc_ge2 n D Hn HnD l (S d) Hl ltac:(lia)).
      replace (anc D l (S d) - 1 =? 0) with false by lia.
      destruct (IH (S d)) as (d' & Hd' & He' & Hm1 & Hm2); auto; try lia.
      exists d'. split; [lia|auto].
  - exists d. split; [lia|]. auto.
Qed.
End WithM.

Lemma getRevealedMerkleNodes_ok s t : shape n D s t ->
  ok (getRevealedMerkleNodes t miss) (fun rv =>
    exists m, missing_spec m /\ NoDup rv /\ (forall r, In r rv <-> Rm m r) /\ length rv <= n).
Proof.
  intros Ht. unfold getRevealedMerkleNodes.
  eapply ok_step; [eapply mark_missing_ok; eauto|]. cbv beta. intros ml (Hll & Hm).
  set (m := fun x => nth x ml false) in *.
  set (I := fun (pre rv : list nat) => NoDup rv /\ (forall r, In r rv -> Rm m r) /\
     (forall l d, In l pre -> d < D -> m (anc D l d - 1) = true -> m (anc D l (S d) - 1) = false ->
        In (anc D l d - 1) rv)).
  pose proof (D_pos n D Hn HnD) as HD0.
  apply ok_mono with (Q := I miss).
  - apply ok_foldM with (I := I).
    + split; [constructor|]. split; [intros r []|intros l d []].
    + intros pre l post rv Hmp (Iu & Ir & Ii).
      assert (Hl : l < n) by (apply miss_lt; rewrite Hmp; apply in_or_app; right; left; auto).
      rewrite (sh_depth _ _ _ _ Ht), (firstLeaf_eq n D s) by auto.
      replace (l + nF D) with (anc D l 0 - 1) by (rewrite anc_0; unfold nF; pose proof (pow_pos D); lia).
      destruct (highest_missing_ok m Hm l ml Hl Hll (fun x => eq_refl) (D + 1) 0) as (d & Hd & He & Hm1 & Hm2); try lia.
      { replace (anc D l 0 - 1) with (nF D + l) by (rewrite anc_0; unfold nF; pose proof (pow_pos D); lia).
        destruct Hm as (_ & Hml & _). rewrite Hml by auto. apply contains_In. rewrite Hmp.
        apply in_or_app. right. left. auto. }
      rewrite He. cbn [bind].
      assert (HR : Rm m (anc D l d - 1)).
      { pose proof (anc_ge2 n D Hn HnD l d Hl ltac:(lia)). split; [lia|]. split; [apply ext_anc; auto; lia|].
        rewrite par_anc by (auto; lia). auto. }
      assert (Huniq : forall d2, d2 < D -> m (anc D l d2 - 1) = true -> m (anc D l (S d2) - 1) = false -> d2 = d).
      { intros d2 Hd2 Ha Hb. destruct (Nat.lt_trichotomy d2 d) as [H|[H|H]]; auto; exfalso.
        - rewrite (m_path m Hm l d (S d2)) in Hb; auto; lia || discriminate.
        - rewrite (m_path m Hm l d2 (S d)) in Hm2; auto; lia || discriminate. }
      destruct (contains rv (anc D l d - 1)) eqn:Ec.
      * cbn [ok]. apply contains_In in Ec. split; [auto|]. split; [auto|].
        intros l' d' Hl' Hd' Ha Hb. apply in_app_or in Hl'. destruct Hl' as [Hl'|[->|[]]]; auto.
        rewrite (Huniq d') by auto. auto.
      * apply contains_false in Ec. rewrite (sh_n _ _ _ _ Ht).
        assert (Hnd : NoDup (rv ++ [anc D l d - 1])).
        { apply NoDup_app_intro; auto. repeat constructor; auto. intros a Ha [<-|[]]. auto. }
        assert (Hall : forall r, In r (rv ++ [anc D l d - 1]) -> Rm m r).
        { intros r Hr. apply in_app_or in Hr. destruct Hr as [Hr|[<-|[]]]; auto. }
        pose proof (Rm_length m Hm _ Hnd Hall) as Hlen. rewrite app_length in Hlen. cbn [length] in Hlen.
        replace (length rv <? n) with true by lia. cbn [guard bind ok].
        split; [auto|]. split; [auto|].
        intros l' d' Hl' Hd' Ha Hb. apply in_app_or in Hl'. apply in_or_app. destruct Hl' as [Hl'|[->|[]]]; auto.
        rewrite (Huniq d') by auto. right. left. auto.
  - intros rv (Iu & Ir & Ii). exists m. split; [auto|]. split; [auto|]. split; [|apply (Rm_length m Hm); auto].
    intros r. split; [auto|]. intros (R0 & Re & R1 & R2).
    destruct (ext_anc_of r Re) as (l & d & Hl & Hd & Ha).
    assert (HdD : d < D).
    { destruct (Nat.eq_dec d D) as [->|]; [|lia]. rewrite (anc_root n D Hn HnD l Hl) in Ha. lia. }
    replace r with (anc D l d - 1) in R1, R2 |- * by lia. rewrite par_anc in R2 by auto.
    apply Ii; auto. apply contains_In.
    destruct Hm as (Hm0 & Hml & Hmx). rewrite <- Hml by auto.
    replace (nF D + l) with (anc D l 0 - 1) by (rewrite anc_0; unfold nF; pose proof (pow_pos D); lia).
    apply (m_path m (conj Hm0 (conj Hml Hmx)) l d 0); auto; lia.
Qed.

(** The marking only depends on the shape. *)
Lemma missing_unique m1 m2 : missing_spec m1 -> missing_spec m2 -> forall x, x < nN n D -> m1 x = m2 x.
Proof.
  intros (A0 & Al & Ax) (B0 & Bl & Bx).
  assert (H : forall k x, nN n D - x <= k -> x < nN n D -> m1 x = m2 x).
  { induction k as [|k IH]; intros x Hk Hx; [lia|].
    destruct (Nat.eq_dec x 0) as [->|H0]; [congruence|].
    destruct (Nat.lt_ge_cases x (nF D)) as [Hlt|Hge].
    - rewrite Ax, Bx by (unfold nF in *; lia). destruct (ext n D x) eqn:Ex; [|reflexivity].
      rewrite <- ext_nonleaf_left in Ex by (unfold nF in *; lia). apply ext_lt in Ex.
      rewrite (IH (2 * x + 1)) by lia.
      destruct (ext n D (2 * x + 2)) eqn:Er; [|reflexivity].
      apply ext_lt in Er. rewrite (IH (2 * x + 2)) by lia. reflexivity.
    - replace x with (nF D + (x - nF D)) by lia. unfold nN, nF in *. rewrite Al, Bl by lia. reflexivity. }
  intros x. apply (H (nN n D - x)). lia.
Qed.

Lemma getRevealedMerkleNodes_shape s1 s2 t1 t2 :
  shape n D s1 t1 -> shape n D s2 t2 -> getRevealedMerkleNodes t1 miss = getRevealedMerkleNodes t2 miss.
Proof.
  intros H1 H2. unfold getRevealedMerkleNodes.
  pose proof (mark_missing_ok _ _ H1) as M1. apply ok_ex in M1. destruct M1 as (m1 & -> & L1 & S1).
  pose proof (mark_missing_ok _ _ H2) as M2. apply ok_ex in M2. destruct M2 as (m2 & -> & L2 & S2).
  assert (Hm : m1 = m2).
  { apply nth_ext with (d := false) (d' := false); [congruence|]. intros x Hx. rewrite L1 in Hx.
    apply (missing_unique _ _ S1 S2 x Hx). }
  rewrite Hm. cbn [bind].
  rewrite (sh_depth _ _ _ _ H1), (sh_depth _ _ _ _ H2), (sh_n _ _ _ _ H1), (sh_n _ _ _ _ H2).
  rewrite (firstLeaf_eq n D s1), (firstLeaf_eq n D s2) by auto. reflexivity.
Qed.

(** ** How many nodes are revealed *)
Section Count.
Variable m : nat -> bool.
Hypothesis Hm : missing_spec m.
Variable opn : list nat.
Hypothesis Hopn : Forall (fun l => l < n) opn.
Hypothesis Hcompl : forall l, l < n -> In l opn <-> ~ In l miss.
Hypothesis Hne : opn <> [].

Lemma not_m_hidden x : ext n D x = true -> m x = false -> hidden D opn (x + 1).
Proof.
  destruct Hm as (M0 & Ml & Mx).
  assert (H : forall k x, nN n D - x <= k -> 0 < x -> ext n D x = true -> m x = false -> hidden D opn (x + 1)).
  { clear x. induction k as [|k IH]; intros x Hk H0 Ex Hx; pose proof (ext_lt n D x Ex) as HxN; [lia|].
    destruct (Nat.lt_ge_cases x (nF D)) as [Hlt|Hge].
    - assert (El : ext n D (2 * x + 1) = true) by (rewrite ext_nonleaf_left by (unfold nF in *; lia); auto).
      rewrite Mx, Ex in Hx by (unfold nF in *; lia). cbn [andb] in Hx.
      assert (Hh : hidden D opn (2 * (x + 1)) \/ hidden D opn (2 * (x + 1) + 1)).
      { destruct (m (2 * x + 1)) eqn:E1; cbn [andb] in Hx.
        - right. destruct (ext n D (2 * x + 2)) eqn:E2; [|discriminate]. cbn [negb orb] in Hx.
          replace (2 * (x + 1) + 1) with (2 * x + 2 + 1) by lia. apply IH; auto; lia.
        - left. replace (2 * (x + 1)) with (2 * x + 1 + 1) by lia. apply IH; auto; lia. }
      destruct Hh as [Hh|Hh]; apply (hidden_half n D Hn HnD opn Hopn) in Hh; try lia.
      + rewrite div2_mul in Hh. auto.
      + rewrite div2_succ in Hh. auto.
    - assert (Hl : x - nF D < n) by (unfold nN, nF in *; lia).
      replace x with (nF D + (x - nF D)) in Hx by lia. rewrite Ml in Hx by auto.
      apply contains_false in Hx. apply Hcompl in Hx; auto.
      exists 0. split; [lia|]. apply in_map_iff. exists (x - nF D). split; auto.
      rewrite anc_0. unfold nF in *. pose proof (pow_pos D). lia. }
  intros Ex Hx. destruct (Nat.eq_dec x 0) as [->|]; [|apply (H (nN n D - x)); auto; lia].
  destruct opn as [|l o] eqn:Ho; [congruence|]. exists D. split; [auto|]. apply in_map_iff. exists l.
  split; [|left; auto]. apply (anc_root n D Hn HnD). inversion Hopn; auto.
Qed.

Lemma hidden_not_m h : hidden D opn h -> m (h - 1) = false.
Proof.
  intros (d & Hd & Hin). apply in_map_iff in Hin. destruct Hin as (l & <- & Hl).
  assert (Hln : l < n) by (rewrite Forall_forall in Hopn; auto).
  destruct (m (anc D l d - 1)) eqn:Hx; auto. exfalso.
  apply (m_path m Hm l d 0) in Hx; auto; [|lia].
  destruct Hm as (_ & Ml & _).
  replace (anc D l 0 - 1) with (nF D + l) in Hx by (rewrite anc_0; unfold nF; pose proof (pow_pos D); lia).
  rewrite Ml in Hx by auto. apply contains_In in Hx. apply Hcompl in Hl; auto.
Qed.

Lemma Rm_Rv r : Rm m r -> Rv n D opn (dsc n D (r + 1) - 1).
Proof.
  intros (R0 & Re & R1 & R2). assert (Hp : ext n D (par r) = true) by (apply ext_par; auto).
  pose proof (not_m_hidden _ Hp R2) as Hh.
  assert (Hpr : par r + 1 = (r + 1) / 2).
  { unfold par. pose proof (Nat.div_le_lower_bound (r + 1) 2 1). lia. }
  rewrite Hpr in Hh.
  assert (Hnr : ~ hidden D opn (r + 1)).
  { intros Hr. apply hidden_not_m in Hr. replace (r + 1 - 1) with r in Hr by lia. congruence. }
  destruct (hidden_half_child opn Hopn (r + 1)) as (l & d & Hl & Hd & Ha); auto.
  { apply ext_lt in Re. unfold nN in Re. lia. }
  exists l, d. split; [auto|]. split; [auto|].
  destruct (sib_inv n D Hn HnD (r + 1)) as [Hs Hs']; [lia|].
  assert (Hsa : sib (anc D l d) = r + 1) by (rewrite Ha; auto).
  split; [|split]; rewrite Hsa; auto.
  - unfold ext in Re. lia.
  - intros Hin. apply Hnr. exists d. split; [lia|auto].
Qed.

Lemma Rm_count rv : NoDup opn -> NoDup rv -> (forall r, In r rv -> Rm m r) -> length rv <= rbound D (length opn).
Proof.
  intros Hno Hnd Hr. etransitivity; [|apply (count_bound n D Hn HnD opn Hopn Hne Hno)].
  destruct createTree_any as (t & Ht).
  pose proof (getRevealedNodes_ok n D Hn HnD opn Hopn 0 t Ht) as Hg. apply ok_ex in Hg.
  destruct Hg as (rw & _ & Hw1 & Hw2 & Hw3).
  etransitivity; [|exact Hw3]. rewrite <- (map_length (fun r => dsc n D (r + 1) - 1) rv).
  apply NoDup_incl_length.
  - assert (Hpos : forall r, 0 < r -> dsc n D (r + 1) = r + 1 \/ dsc n D (r + 1) = 2 * (r + 1)).
    { intros r _. unfold dsc. destruct (2 * (r + 1) + 1 =? _); auto. }
    assert (Hinj : forall r1 r2, Rm m r1 -> Rm m r2 -> dsc n D (r1 + 1) - 1 = dsc n D (r2 + 1) - 1 -> r1 = r2).
    { intros r1 r2 (A1 & B1 & C1 & D1) (A2 & B2 & C2 & D2) He.
      destruct (Hpos r1 A1) as [P1|P1], (Hpos r2 A2) as [P2|P2]; try lia; exfalso.
      - assert (r1 = 2 * r2 + 1) as Hx by lia. rewrite Hx, par_left in D1. congruence.
      - assert (r2 = 2 * r1 + 1) as Hx by lia. rewrite Hx, par_left in D2. congruence. }
    clear Hw1 Hw2 Hw3. induction Hnd as [|r rv Hnin Hnd IH]; cbn [map]; constructor.
    + intros Hin. apply in_map_iff in Hin. destruct Hin as (r' & Hl & Hin).
      apply Hinj in Hl; [subst; auto|apply Hr; right; auto|apply Hr; left; auto].
    + apply IH. intros; apply Hr; right; auto.
  - intros q Hq. apply in_map_iff in Hq. destruct Hq as (r & <- & Hin). apply Hw2. apply Rm_Rv. auto.
Qed.
End Count.

End Missing.
End Missing0.
