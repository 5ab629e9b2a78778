(** Shape of the trees of tree.c: which nodes exist, loops over trees. *)

From Coq Require Import List NArith Arith Bool Lia ZifyBool ZifyNat ZifyN.
From Verif Require Import Base Params Env Spec Tree BaseFacts UtilFacts.
Import ListNotations.

(** ** Loops *)
Lemma ok_down {S} (I : nat -> S -> Prop) n (body : nat -> S -> res S) (s : S) :
  I n s ->
  (forall i s, 0 < i <= n -> I i s -> ok (body i s) (I (i - 1))) ->
  ok (for_down n body s) (I 0).
Proof.
  revert s; induction n as [|n IH]; intros s H0 Hs; cbn [for_down]; [exact H0|].
  eapply ok_step; [apply Hs; auto; lia|]. intros a Ha.
  replace (Datatypes.S n - 1) with n in Ha by lia.
  apply IH; auto. intros; apply Hs; auto; lia.
Qed.

Lemma ok_foldM {A S} (I : list A -> S -> Prop) (f : S -> A -> res S) (l : list A) (s : S) :
  I [] s ->
  (forall pre x post s, l = pre ++ x :: post -> I pre s -> ok (f s x) (I (pre ++ [x]))) ->
  ok (foldM f l s) (I l).
Proof.
  enough (H : forall l2 l1 s, l = l1 ++ l2 -> I l1 s ->
    (forall pre x post s, l = pre ++ x :: post -> I pre s -> ok (f s x) (I (pre ++ [x]))) ->
    ok (foldM f l2 s) (I l)) by (intros; apply (H l []); auto).
  induction l2 as [|x l2 IH]; intros l1 s0 Hl H0 Hs; cbn [foldM].
  - rewrite app_nil_r in Hl. subst l1. exact H0.
  - eapply ok_step; [apply (Hs l1 x l2); auto|]. intros a Ha.
    apply (IH (l1 ++ [x])); auto. rewrite <- app_assoc. exact Hl.
Qed.

Lemma mapM_pure {A B} (f : A -> res B) g (l : list A) :
  (forall x, In x l -> f x = Ok (g x)) -> mapM f l = Ok (map g l).
Proof.
  induction l as [|x l IH]; intros H; cbn [mapM map]; auto.
  rewrite H by (left; auto). cbn [bind]. rewrite IH by (intros; apply H; right; auto). reflexivity.
Qed.

(** ** Heap arithmetic: node [i] has heap number [h = i + 1] *)
Lemma div2_mul a : 2 * a / 2 = a.
Proof. rewrite Nat.mul_comm. apply Nat.div_mul. lia. Qed.
Lemma div2_succ a : (2 * a + 1) / 2 = a.
Proof. rewrite Nat.add_comm, Nat.mul_comm, Nat.div_add by lia. reflexivity. Qed.
Lemma half_cases h : h = 2 * (h / 2) \/ h = 2 * (h / 2) + 1.
Proof. pose proof (Nat.div_mod_eq h 2). pose proof (Nat.mod_upper_bound h 2). lia. Qed.

Lemma pow_pos k : 0 < 2 ^ k.
Proof. apply Nat.neq_0_lt_0, Nat.pow_nonzero. lia. Qed.

Lemma pow_S k : 2 ^ S k = 2 * 2 ^ k.
Proof. reflexivity. Qed.

Lemma div_pow_S q k : q / 2 ^ S k = q / 2 ^ k / 2.
Proof.
  rewrite pow_S, Nat.mul_comm, <- Nat.div_div by (try lia; pose proof (pow_pos k); lia). reflexivity.
Qed.

Lemma div_pow_add q j k : q / 2 ^ (j + k) = q / 2 ^ j / 2 ^ k.
Proof.
  rewrite Nat.pow_add_r, Nat.div_div by (pose proof (pow_pos k); pose proof (pow_pos j); lia). reflexivity.
Qed.

Lemma getParent_ok i : 0 < i -> getParent i = Ok ((i + 1) / 2 - 1).
Proof.
  intros H. unfold getParent, isLeftChild. replace (i =? 0) with false by lia. cbn [negb c_assert bind].
  destruct (half_cases (i + 1)) as [He|He];
    pose proof (Nat.div_mod_eq i 2); pose proof (Nat.mod_upper_bound i 2).
  - replace (i mod 2 =? 1) with true by lia. f_equal.
    replace (i - 1) with (2 * ((i + 1) / 2 - 1)) by lia. apply div2_mul.
  - replace (i mod 2 =? 1) with false by lia. f_equal.
    replace (i - 2) with (2 * ((i + 1) / 2 - 1)) by lia. apply div2_mul.
Qed.

Lemma isLeftChild_ok i : 0 < i -> isLeftChild i = Ok (Nat.even (i + 1)).
Proof.
  intros H. unfold isLeftChild. replace (i =? 0) with false by lia. cbn [negb c_assert bind]. f_equal.
  rewrite Nat.add_1_r, Nat.even_succ. rewrite <- Nat.bit0_odd. rewrite Nat.bit0_eqb. reflexivity.
Qed.

Section Shape.
Variables n D : nat.
Hypothesis Hn : 2 <= n.
Hypothesis HnD : n <= 2 ^ D.

Let M := 2 ^ D.

Lemma D_pos : 0 < D.
Proof. destruct D; [|lia]. cbn in HnD. lia. Qed.

Lemma M_even : M = 2 * 2 ^ (D - 1).
Proof. unfold M. pose proof D_pos. replace D with (S (D - 1)) at 1 by lia. reflexivity. Qed.

(** Number of nodes, first leaf. *)
Definition nN : nat := M - 1 + n.
Definition nF : nat := M - 1.

(** Node with heap number [h] exists: its leftmost leaf is one of the [n] leaves. *)
Definition exh (h : nat) : bool := h * 2 ^ (D - Nat.log2 h) <? M + n.
(** Node [i] exists. *)
Definition ext (i : nat) : bool := (i <? nN) && exh (i + 1).

Lemma exh_left h : 0 < h -> h < M -> exh (2 * h) = exh h.
Proof.
  intros H0 H1. unfold exh.
  assert (Hl : Nat.log2 h < D) by (apply Nat.log2_lt_pow2; auto).
  rewrite Nat.log2_double by auto.
  replace (2 * h * 2 ^ (D - S (Nat.log2 h))) with (h * 2 ^ S (D - S (Nat.log2 h))) by (rewrite pow_S; lia).
  replace (S (D - S (Nat.log2 h))) with (D - Nat.log2 h) by lia. reflexivity.
Qed.

Lemma exh_right h : 0 < h -> h < M -> exh (2 * h + 1) = true -> exh h = true.
Proof.
  intros H0 H1 H. rewrite <- exh_left by auto. unfold exh in *.
  rewrite Nat.log2_succ_double in H by auto. rewrite Nat.log2_double by auto.
  assert (2 * h * 2 ^ (D - S (Nat.log2 h)) <= (2 * h + 1) * 2 ^ (D - S (Nat.log2 h)))
    by (apply Nat.mul_le_mono_r; lia). lia.
Qed.

Lemma log2_leaf h : M <= h -> h < 2 * M -> Nat.log2 h = D.
Proof. intros. apply Nat.log2_unique; [lia|]. rewrite pow_S. fold M. lia. Qed.

Lemma exh_leaf h : M <= h -> h < 2 * M -> exh h = (h <? M + n).
Proof.
  intros H0 H1. unfold exh. rewrite (log2_leaf h) by auto. rewrite Nat.sub_diag.
  change (2 ^ 0) with 1. rewrite Nat.mul_1_r. reflexivity.
Qed.

Lemma exh_root : exh 1 = true.
Proof. unfold exh. change (Nat.log2 1) with 0. rewrite Nat.sub_0_r. fold M. lia. Qed.

Lemma exh_half h : 1 < h -> h < 2 * M -> exh h = true -> exh (h / 2) = true.
Proof.
  intros H0 H1 H. destruct (half_cases h) as [He|He]; rewrite He in H.
  - rewrite exh_left in H by lia. auto.
  - apply exh_right; auto; lia.
Qed.

Lemma exh_lt h : 0 < h -> h < 2 * M -> exh h = true -> h < M + n.
Proof.
  intros H0 H1 H. destruct (Nat.lt_ge_cases h M); [lia|]. rewrite exh_leaf in H by auto. lia.
Qed.

(** Ancestors of leaves exist. *)
Lemma exh_anc q k : M <= q < M + n -> k <= D -> exh (q / 2 ^ k) = true.
Proof.
  intros Hq. induction k as [|k IH]; intros Hk.
  - change (2 ^ 0) with 1. rewrite Nat.div_1_r. rewrite exh_leaf by lia. lia.
  - rewrite div_pow_S. apply exh_half; [| |apply IH; lia].
    + apply Nat.div_le_lower_bound; [pose proof (pow_pos k); lia|].
      replace D with (S k + (D - S k)) in Hq, HnD by lia. unfold M in Hq.
      replace D with (k + S (D - S k)) in Hq by lia. rewrite Nat.pow_add_r, pow_S in Hq.
      pose proof (pow_pos (D - S k)). nia.
    + apply Nat.div_lt_upper_bound; [pose proof (pow_pos k); lia|]. pose proof (pow_pos k). nia.
Qed.

(** Range of the ancestors at height [k]. *)
Lemma anc_range q k : M <= q < 2 * M -> k <= D -> 2 ^ (D - k) <= q / 2 ^ k < 2 * 2 ^ (D - k).
Proof.
  intros Hq Hk. assert (HM : M = 2 ^ (D - k) * 2 ^ k).
  { unfold M. rewrite <- Nat.pow_add_r. f_equal. lia. }
  split.
  - apply Nat.div_le_lower_bound; [pose proof (pow_pos k); lia|]. lia.
  - apply Nat.div_lt_upper_bound; [pose proof (pow_pos k); lia|]. lia.
Qed.

(** Every existing node has a real leaf below it. *)
Lemma exh_leaf_below h : 0 < h -> h < 2 * M -> exh h = true ->
  exists k, k <= D /\ 2 ^ (D - k) <= h < 2 * 2 ^ (D - k) /\
    M <= h * 2 ^ k < M + n /\ h * 2 ^ k / 2 ^ k = h.
Proof.
  intros H0 H1 H. set (k := D - Nat.log2 h).
  assert (Hl : Nat.log2 h <= D).
  { apply Nat.lt_succ_r. apply Nat.log2_lt_pow2; auto. }
  destruct (Nat.log2_spec h H0) as [La Lb]. rewrite pow_S in Lb.
  exists k. unfold k. split; [lia|]. replace (D - (D - Nat.log2 h)) with (Nat.log2 h) by lia.
  split; [auto|]. split.
  - unfold exh in H. split; [|lia]. unfold M. replace D with (Nat.log2 h + (D - Nat.log2 h)) at 1 by lia.
    rewrite Nat.pow_add_r. apply Nat.mul_le_mono_r. auto.
  - apply Nat.div_mul. pose proof (pow_pos (D - Nat.log2 h)). lia.
Qed.

Lemma ext_spec i : i < nN -> ext i = exh (i + 1).
Proof. intros H. unfold ext. replace (i <? nN) with true by lia. reflexivity. Qed.

(** ** Trees of this shape *)
Record shape (sz : nat) (t : tree) : Prop := {
  sh_depth : t_depth t = D + 1;
  sh_N : t_numNodes t = nN;
  sh_n : t_numLeaves t = n;
  sh_sz : t_dataSize t = sz;
  sh_nodes : length (t_nodes t) = nN;
  sh_have : length (t_haveNode t) = nN;
  sh_exl : length (t_exists t) = nN;
  sh_ex : forall i, i < nN -> nth i (t_exists t) false = exh (i + 1);
  sh_nl : forall i, i < nN -> length (nth i (t_nodes t) []) = sz
}.

Definition nd (t : tree) (i : nat) : bytes := nth i (t_nodes t) [].
Definition hv (t : tree) (i : nat) : bool := nth i (t_haveNode t) false.

Lemma tree_exists_ok sz t i : shape sz t -> tree_exists t i = Ok (ext i).
Proof. clear Hn HnD.
  intros H. unfold tree_exists, exists_arr, ext. rewrite (sh_N _ _ H).
  destruct (Nat.leb_spec nN i); replace (i <? nN) with (negb (nN <=? i)) by lia.
  - replace (nN <=? i) with true by lia. reflexivity.
  - replace (nN <=? i) with false by lia. cbn [negb andb].
    rewrite (rd_ok _ _ false) by (rewrite (sh_exl _ _ H); auto). rewrite (sh_ex _ _ H) by auto. reflexivity.
Qed.

Lemma rd_have sz t i : shape sz t -> i < nN -> rd (t_haveNode t) i = Ok (hv t i).
Proof. clear Hn HnD. intros H Hi. apply rd_ok. rewrite (sh_have _ _ H). auto. Qed.

Lemma rd_node sz t i : shape sz t -> i < nN -> rd (t_nodes t) i = Ok (nd t i).
Proof. clear Hn HnD. intros H Hi. apply rd_ok. rewrite (sh_nodes _ _ H). auto. Qed.

Lemma firstLeaf_eq sz t : shape sz t -> firstLeaf t = nF.
Proof. clear Hn HnD. intros H. unfold firstLeaf. rewrite (sh_N _ _ H), (sh_n _ _ H). unfold nN, nF. lia. Qed.

Lemma put_node_ok sz t i d : shape sz t -> i < nN -> length d = sz ->
  ok (put_node t i d) (fun t' => shape sz t' /\
    (forall x, nd t' x = if x =? i then d else nd t x) /\
    (forall x, hv t' x = if x =? i then true else hv t x)).
Proof. clear Hn HnD.
  intros H Hi Hd. unfold put_node.
  rewrite (rd_node sz) by auto. cbn [bind].
  rewrite blit0_all by (unfold nd; rewrite (sh_nl _ _ H); auto). cbn [bind].
  rewrite wr_ok by (rewrite (sh_nodes _ _ H); auto). cbn [bind].
  rewrite wr_ok by (rewrite (sh_have _ _ H); auto). cbn [bind ok].
  assert (A : forall x, nth x (list_set (t_nodes t) i d) [] = if x =? i then d else nd t x).
  { intros x. rewrite nth_list_set by (rewrite (sh_nodes _ _ H); auto). reflexivity. }
  split; [|split].
  - destruct H. constructor; cbn [set_node t_depth t_numNodes t_numLeaves t_dataSize t_nodes t_haveNode t_exists];
      rewrite ?length_list_set; auto.
    intros j Hj. rewrite A. destruct (j =? i); auto. apply sh_nl0; auto.
  - exact A.
  - intros x. unfold hv. cbn [set_node t_haveNode]. rewrite nth_list_set by (rewrite (sh_have _ _ H); auto).
    reflexivity.
Qed.

End Shape.

(** ** createTree *)
Section Create.
Variables n D : nat.
Hypothesis Hn : 2 <= n.
Hypothesis HD : D = Nat.log2_up n.
Hypothesis Hbig : D < 30.

Lemma D_bound : n <= 2 ^ D.
Proof. subst D. apply Nat.log2_up_spec. lia. Qed.

Lemma ceil_D : ceil_log2_nat n = D.
Proof.
  rewrite HD. apply ceil_log2_nat_spec; [lia|].
  assert (N.of_nat n <= N.of_nat (2 ^ D))%N by (pose proof D_bound; lia).
  rewrite Nat2N.inj_pow in H. change (N.of_nat 2) with 2%N in H.
  assert (2 ^ N.of_nat D < 2 ^ 32)%N by (apply N.pow_lt_mono_r; lia). lia.
Qed.

Lemma createTree_ok sz :
  ok (createTree n sz) (fun t => shape n D sz t /\ (forall i, i < nN n D -> nd t i = zeros sz) /\
    (forall i, hv t i = false)).
Proof.
  pose proof D_bound as HnD. set (M := 2 ^ D). pose proof (D_pos n D Hn HnD) as Dp.
  pose proof (M_even n D Hn HnD) as Me.
  assert (Mp : 0 < M) by apply pow_pos.
  unfold createTree. rewrite ceil_D.
  replace (D + 1 <? 31) with true by lia. cbn [guard bind].
  replace (2 ^ (D + 1) - 1 - (2 ^ (D + 1 - 1) - n)) with (nN n D).
  2:{ unfold nN. replace (D + 1 - 1) with D by lia. rewrite Nat.add_1_r, pow_S. fold M. lia. }
  replace (nN n D - n) with (nF D) by (unfold nN, nF; fold M; lia).
  rewrite blit_ok by (rewrite !repeat_length; unfold nN, nF; fold M; lia). cbn [bind].
  set (ex0 := blit_list _ _ _).
  assert (L0 : length ex0 = nN n D).
  { unfold ex0. rewrite length_blit_list, repeat_length; auto. rewrite !repeat_length. unfold nN, nF. fold M. lia. }
  assert (N0 : forall j, nth j ex0 false = (nF D <=? j) && (j <? nN n D)).
  { intros j. unfold ex0. rewrite nth_blit_list by (rewrite !repeat_length; unfold nN, nF; fold M; lia).
    rewrite !repeat_length.
    assert (R : forall b k i, nth i (repeat b k) false = b && (i <? k)).
    { intros b k i. destruct (Nat.ltb_spec i k).
      - rewrite (nth_indep _ false b) by (rewrite repeat_length; auto). rewrite nth_repeat. destruct b; auto.
      - rewrite nth_overflow by (rewrite repeat_length; auto). destruct b; auto. }
    rewrite !R. unfold nN, nF. fold M.
    destruct (Nat.leb_spec (M - 1) j); destruct (Nat.ltb_spec j (M - 1 + n)); cbn [andb];
      repeat match goal with |- context [if ?c then _ else _] => destruct c eqn:? end; lia. }
  set (I := fun i (ex : list bool) => length ex = nN n D /\
     forall j, 0 < j -> j < nN n D ->
       nth j ex false = if i <? j then exh n D (j + 1) else (nF D <=? j) && (j <? nN n D)).
  apply ok_step with (Q := I 0).
  - apply ok_down with (I := I).
    + split; [auto|]. intros j Hj0 Hj. rewrite N0. destruct (Nat.ltb_spec (nF D) j); auto.
      rewrite exh_leaf; auto; unfold nN, nF in *; fold M; fold M in H, Hj; try lia.
    + intros i ex Hi [Hl Hex]. unfold exists_arr.
      assert (Hr : forall k, i < k -> (if nN n D <=? k then Ok false else rd ex k) = Ok (ext n D k)).
      { intros k Hk. unfold ext. destruct (Nat.leb_spec (nN n D) k).
        - replace (k <? nN n D) with false by lia. reflexivity.
        - rewrite (rd_ok _ _ false) by lia. rewrite Hex by lia.
          replace (i <? k) with true by lia. replace (k <? nN n D) with true by lia. reflexivity. }
      rewrite Hr by lia. cbn [bind].
      assert (Hc : forall v, (v = exh n D (i + 1)) ->
        ok (if v then wr ex i true else Ok ex) (I (i - 1))).
      { intros v ->. destruct (exh n D (i + 1)) eqn:Ei.
        - rewrite wr_ok by (rewrite Hl; unfold nN, nF in *; fold M; fold M in Hi; lia). cbn [ok].
          split; [rewrite length_list_set; auto|]. intros j Hj0 Hj.
          rewrite nth_list_set by (rewrite Hl; unfold nN, nF in *; fold M; fold M in Hi; lia).
          destruct (Nat.eqb_spec j i) as [->|].
          + replace (i - 1 <? i) with true by lia. auto.
          + rewrite Hex by auto. destruct (Nat.ltb_spec i j), (Nat.ltb_spec (i - 1) j); auto; lia.
        - cbn [ok]. split; [auto|]. intros j Hj0 Hj. rewrite Hex by auto.
          destruct (Nat.ltb_spec i j), (Nat.ltb_spec (i - 1) j); auto; try lia.
          assert (j = i) by lia. subst j. rewrite Ei.
          destruct (Nat.eq_dec i (nF D)) as [->|]; [|unfold nF in *; lia].
          rewrite exh_leaf in Ei; auto; unfold nF in *; fold M in Hi |- *; try lia. }
      assert (He : (if ext n D (2 * i + 1) then true else ext n D (2 * i + 2)) = exh n D (i + 1)
        \/ (i = nF D)).
      { destruct (Nat.eq_dec i (nF D)) as [|Hne]; [auto|left].
        assert (Hi' : i + 1 < M) by (unfold nF in *; lia).
        unfold ext. replace (2 * i + 1 + 1) with (2 * (i + 1)) by lia.
        replace (2 * i + 2 + 1) with (2 * (i + 1) + 1) by lia.
        rewrite exh_left by (fold M; lia || auto).
        destruct (exh n D (i + 1)) eqn:Ei.
        - assert (El : exh n D (2 * (i + 1)) = true) by (rewrite exh_left; auto; fold M; lia).
          apply exh_lt in El; auto; fold M in El |- *; try lia.
          replace (2 * i + 1 <? nN n D) with true by (unfold nN; fold M; lia). reflexivity.
        - rewrite andb_false_r. destruct (exh n D (2 * (i + 1) + 1)) eqn:Er.
          + apply exh_right in Er; auto; fold M; try lia; congruence.
          + rewrite andb_false_r. reflexivity. }
      destruct He as [He|He].
      * destruct (ext n D (2 * i + 1)); cbn [bind].
        -- apply (Hc true). auto.
        -- rewrite Hr by lia. cbn [bind]. apply Hc. auto.
      * (* the first leaf *)
        assert (Ei : exh n D (i + 1) = true).
        { rewrite He, exh_leaf; auto; unfold nF; fold M; lia. }
        assert (Hw : wr ex i true = Ok (list_set ex i true)).
        { apply wr_ok. rewrite Hl, He. unfold nN, nF. fold M. lia. }
        assert (Hs : I (i - 1) (list_set ex i true) /\ I (i - 1) ex).
        { specialize (Hc true (eq_sym Ei)). rewrite Hw in Hc. split; [exact Hc|].
          split; [auto|]. intros j Hj0 Hj. rewrite Hex by auto.
          destruct (Nat.ltb_spec i j), (Nat.ltb_spec (i - 1) j); auto; try lia.
          assert (j = i) by lia. subst j. rewrite Ei. unfold nF, nN in *. lia. }
        destruct Hs as [Hs1 Hs2].
        destruct (ext n D (2 * i + 1)); cbn [bind]; [rewrite Hw; exact Hs1|].
        rewrite Hr by lia. cbn [bind]. destruct (ext n D (2 * i + 2)); [rewrite Hw; exact Hs1|exact Hs2].
  - intros ex [Hl Hex]. rewrite wr_ok by (unfold nN in *; lia). cbn [bind ok].
    split; [|split].
    + constructor; cbn [t_depth t_numNodes t_numLeaves t_dataSize t_nodes t_haveNode t_exists];
        rewrite ?repeat_length, ?length_list_set; auto.
      * intros i Hi. rewrite nth_list_set by (unfold nN in *; lia).
        destruct (Nat.eqb_spec i 0) as [->|]; [symmetry; apply exh_root; auto|].
        rewrite Hex by lia. replace (0 <? i) with true by lia. reflexivity.
      * intros i Hi. rewrite (nth_indep _ [] (zeros sz)) by (rewrite repeat_length; auto).
        rewrite nth_repeat. apply length_zeros.
    + intros i Hi. unfold nd. cbn [t_nodes].
      rewrite (nth_indep _ [] (zeros sz)) by (rewrite repeat_length; auto). apply nth_repeat.
    + intros i. unfold hv. cbn [t_haveNode]. destruct (Nat.lt_ge_cases i (nN n D)).
      * apply nth_repeat.
      * apply nth_overflow. rewrite repeat_length. auto.
Qed.

End Create.
