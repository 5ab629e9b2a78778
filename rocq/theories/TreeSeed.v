(** Seed trees: expansion (tree.c:136-177). *)

From Coq Require Import List NArith Arith Bool Lia ZifyBool ZifyNat ZifyN.
From Verif Require Import Base Params Env Spec Tree BaseFacts ParamFacts UtilFacts TreeShape.
Import ListNotations.

(** Parent of node [x] (not the root). *)
Definition par (x : nat) : nat := (x + 1) / 2 - 1.

Lemma par_left i : par (2 * i + 1) = i.
Proof. unfold par. replace (2 * i + 1 + 1) with (2 * (i + 1)) by lia. rewrite div2_mul. lia. Qed.
Lemma par_right i : par (2 * i + 2) = i.
Proof. unfold par. replace (2 * i + 2 + 1) with (2 * (i + 1) + 1) by lia. rewrite div2_succ. lia. Qed.
Lemma par_cases x : 0 < x -> x = 2 * par x + 1 \/ x = 2 * par x + 2.
Proof. unfold par. destruct (half_cases (x + 1)); lia. Qed.
Lemma par_lt x : 0 < x -> par x < x.
Proof. intros. destruct (par_cases x); lia. Qed.

Section Ext.
Variables (n D : nat).
Hypothesis Hn : 2 <= n.
Hypothesis HnD : n <= 2 ^ D.

Lemma lastNonLeaf_ok sz t : shape n D sz t ->
  exists l, getParent (t_numNodes t - 1) = Ok l /\ l + 1 = (2 ^ D + n - 1) / 2 /\ 2 * l + 1 < nN n D.
Proof.
  intros H. rewrite (sh_N _ _ _ _ H). pose proof (pow_pos D).
  assert (1 <= (2 ^ D + n - 1) / 2) by (apply Nat.div_le_lower_bound; lia).
  exists ((2 ^ D + n - 1) / 2 - 1). unfold nN. rewrite getParent_ok by lia.
  replace (2 ^ D - 1 + n - 1 + 1) with (2 ^ D + n - 1) by lia.
  split; [reflexivity|]. destruct (half_cases (2 ^ D + n - 1)); lia.
Qed.

Lemma ext_lt x : ext n D x = true -> x < nN n D.
Proof. clear Hn HnD. unfold ext. lia. Qed.

Lemma ext_left_of i : i + 1 <= (2 ^ D + n - 1) / 2 -> ext n D i = true -> ext n D (2 * i + 1) = true.
Proof.
  intros Hi H. assert (i + 1 < 2 ^ D).
  { destruct (half_cases (2 ^ D + n - 1)); pose proof (pow_pos D); lia. }
  unfold ext in *. apply andb_true_iff in H. destruct H as [_ H].
  replace (2 * i + 1 + 1) with (2 * (i + 1)) by lia. rewrite exh_left; auto; [|lia].
  rewrite H. assert (exh n D (2 * (i + 1)) = true) by (rewrite exh_left; auto; lia).
  apply exh_lt in H1; auto; try lia. unfold nN. lia.
Qed.

Lemma ext_par x : 0 < x -> ext n D x = true -> ext n D (par x) = true.
Proof.
  intros Hx H. pose proof (ext_lt _ H) as Hl. unfold nN in Hl. unfold ext in *.
  apply andb_true_iff in H. destruct H as [_ H].
  apply exh_half in H; auto; try lia.
  unfold par. replace ((x + 1) / 2 - 1 + 1) with ((x + 1) / 2).
  - rewrite H. unfold nN. destruct (half_cases (x + 1)); lia.
  - destruct (half_cases (x + 1)); lia.
Qed.

End Ext.

Section SeedTree.
Variable E : env.
Variable P : paramset.
Hypothesis HE : env_bytes_ok E.
Hypothesis seed_pos : 0 < seedSizeBytes P <= MAX_SEED_SIZE_BYTES.

Variables (n D : nat).
Hypothesis Hn : 2 <= n.
Hypothesis HnD : n <= 2 ^ D.
Let sz := seedSizeBytes P.

Variables (salt : bytes) (rep : nat).
Hypothesis Hsalt : saltSizeBytes P <= length salt.

(** The two seeds derived from the seed [s] of node [i]. *)
Definition seed_hash (s : bytes) (i : nat) : bytes :=
  hash E P (Some 1%N) [s; firstn (saltSizeBytes P) salt; intLE rep; intLE i] (2 * sz).
Definition seed_half (x : nat) (b : bytes) : bytes :=
  if Nat.even (x + 1) then firstn sz b else firstn sz (skipn sz b).

Lemma length_seed_hash s i : length (seed_hash s i) = 2 * sz.
Proof. unfold seed_hash, hash. apply HE. Qed.

Lemma hashSeed_ok s i : length s = sz -> hashSeed E P s salt HASH_PREFIX_1 rep i = Ok (seed_hash s i).
Proof.
  intros Hs. unfold hashSeed. rewrite slice_all by auto. cbn [bind].
  rewrite slice0_ok by auto. reflexivity.
Qed.

Definition expand_inv (t : tree) (i : nat) (s : tree) : Prop :=
  shape n D sz s /\
  (forall x, hv s x = true -> ext n D x = true) /\
  (forall x, hv s x = ext n D x && (hv t x || (0 <? x) && (par x <? i) && hv s (par x))) /\
  (forall x, hv t x = true -> nd s x = nd t x) /\
  (forall x, hv s x = true -> hv t x = false -> nd s x = seed_half x (seed_hash (nd s (par x)) (par x))).

Lemma put_step t0 s x i d :
  shape n D sz s -> x < nN n D -> length d = sz -> 
  (forall y, hv s y = true -> ext n D y = true) -> ext n D x = true -> 0 < x -> par x = i -> hv s x = false ->
  hv s i = true -> d = seed_half x (seed_hash (nd s i) i) ->
  (forall y, hv t0 y = true -> hv s y = true) ->
  (forall y, hv t0 y = true -> nd s y = nd t0 y) ->
  (forall y, hv s y = true -> 0 < y -> par y < x \/ hv t0 y = true) ->
  (forall y, hv s y = true -> hv t0 y = false -> nd s y = seed_half y (seed_hash (nd s (par y)) (par y))) ->
  ok (put_node s x d) (fun s' => shape n D sz s' /\
    (forall y, hv s' y = true -> ext n D y = true) /\
    (forall y, hv s' y = if y =? x then true else hv s y) /\
    nd s' i = nd s i /\
    (forall y, hv t0 y = true -> nd s' y = nd t0 y) /\
    (forall y, hv s' y = true -> hv t0 y = false -> nd s' y = seed_half y (seed_hash (nd s' (par y)) (par y)))).
Proof.
  intros Hs Hx Hd He Hex Hx0 Hp Hhx Hhi Hdd Ht Htn Hpar Hc.
  eapply ok_mono; [apply put_node_ok; eauto|]. intros s' (Ps & Pn & Ph).
  assert (Hix : i <> x) by (intros ->; congruence).
  split; [exact Ps|]. split; [|split; [exact Ph|split; [|split]]].
  - intros y. rewrite Ph. destruct (Nat.eqb_spec y x) as [->|]; auto.
  - rewrite Pn. replace (i =? x) with false by lia. reflexivity.
  - intros y Hy. rewrite Pn. destruct (Nat.eqb_spec y x) as [->|]; auto.
    apply Ht in Hy. congruence.
  - intros y Hy Hty. rewrite !Pn. rewrite Ph in Hy. destruct (Nat.eqb_spec y x) as [Hyx|].
    + rewrite Hyx, Hp. replace (i =? x) with false by lia. exact Hdd.
    + replace (par y =? x) with false; [apply Hc; auto|].
      destruct (Nat.eq_dec y 0) as [->|]; [unfold par; cbn; lia|].
      destruct (Hpar y Hy) as [|]; [lia|lia|congruence].
Qed.

Lemma expandSeeds_ok t :
  shape n D sz t -> (forall x, hv t x = true -> ext n D x = true) ->
  ok (expandSeeds E P t salt rep) (fun s =>
    shape n D sz s /\
    (forall x, hv s x = ext n D x && (hv t x || (0 <? x) && hv s (par x))) /\
    (forall x, hv t x = true -> nd s x = nd t x) /\
    (forall x, hv s x = true -> hv t x = false ->
       nd s x = seed_half x (seed_hash (nd s (par x)) (par x)))).
Proof.
  intros Ht Hext. unfold expandSeeds.
  destruct (lastNonLeaf_ok n D Hn HnD sz t Ht) as (L & -> & HL1 & HL2). cbn [bind].
  pose proof seed_pos as Hsz.
  apply ok_mono with (Q := expand_inv t (0 + (L + 1))).
  - apply ok_for with (I := expand_inv t).
    + split; [auto|]. split; [auto|]. split; [|split].
      * intros x. replace (par x <? 0) with false by lia. rewrite andb_false_r, orb_false_r.
        destruct (hv t x) eqn:Hx; [rewrite Hext; auto|rewrite andb_false_r; auto].
      * auto.
      * intros; congruence.
    + intros i s Hi (Is & Ie & Ih & In & Ic).
      assert (HiN : i < nN n D) by lia.
      unfold expand_step. rewrite (rd_have n D sz) by auto. cbn [bind].
      destruct (hv s i) eqn:Hhi; cbn [negb].
      2:{ split; [auto|]. split; [auto|]. split; [|split; auto].
          intros x. rewrite Ih at 1. do 2 f_equal.
          destruct (Nat.eq_dec (par x) i) as [Hp|Hp].
          - rewrite Hp, Hhi, !andb_false_r. reflexivity.
          - f_equal. f_equal. lia. }
      rewrite (rd_node n D sz) by auto. cbn [bind].
      rewrite hashSeed_ok by (apply (sh_nl _ _ _ _ Is); auto). cbn [bind].
      rewrite length_seed_hash. replace (2 * sz <=? 2 * MAX_SEED_SIZE_BYTES) with true
        by (unfold sz; lia). cbn [guard bind].
      assert (El : ext n D (2 * i + 1) = true) by (apply ext_left_of; auto; lia).
      rewrite (rd_have n D sz) by (auto || lia). cbn [bind].
      assert (Hparb : forall y, hv s y = true -> 0 < y -> hv t y = true \/ par y < i).
      { intros y Hy Hy0. rewrite Ih in Hy. destruct (hv t y); auto. right. lia. }
      assert (Htm : forall y, hv t y = true -> hv s y = true).
      { intros y Hy. rewrite Ih, Hy, (Hext y) by auto. reflexivity. }
      set (h := seed_hash (nd s i) i).
      assert (Hlh : length h = 2 * sz) by apply length_seed_hash.
      (* the left child *)
      apply ok_step with (Q := fun s' => shape n D sz s' /\
         (forall y, hv s' y = true -> ext n D y = true) /\
         (forall y, hv s' y = if y =? 2 * i + 1 then true else hv s y) /\
         nd s' i = nd s i /\
         (forall y, hv t y = true -> nd s' y = nd t y) /\
         (forall y, hv s' y = true -> hv t y = false ->
             nd s' y = seed_half y (seed_hash (nd s' (par y)) (par y)))).
      { destruct (hv s (2 * i + 1)) eqn:Hl; cbn [negb].
        - split; [auto|]. split; [auto|]. split; [|auto].
          intros y. destruct (Nat.eqb_spec y (2 * i + 1)) as [->|]; auto.
        - rewrite slice0_ok by lia. cbn [bind].
          apply put_step with (t0 := t); auto; try lia.
          + rewrite firstn_length; lia.
          + apply par_left.
          + unfold seed_half. fold h. replace (2 * i + 1 + 1) with (2 * (i + 1)) by lia.
            rewrite Nat.even_mul. reflexivity.
          + intros y Hy Hy0. destruct (Hparb y Hy Hy0); auto. left; lia. }
      intros s' (Js & Je & Jh & Jn & Jt & Jc).
      rewrite (tree_exists_ok n D sz) by auto. cbn [bind].
      destruct (ext n D (2 * i + 2)) eqn:Er.
      2:{ split; [auto|]. split; [auto|]. split; [|split; auto].
          intros x. rewrite !Jh.
          destruct (Nat.eqb_spec x (2 * i + 1)) as [->|].
          - rewrite par_left. rewrite El. cbn [andb].
            replace (i =? 2 * i + 1) with false by lia. rewrite Hhi. lia.
          - rewrite Ih at 1. destruct (ext n D x) eqn:Ex; cbn [andb]; auto. f_equal.
            destruct (Nat.eq_dec x 0) as [->|]; [reflexivity|].
            assert (par x <> i).
            { intros Hp. destruct (par_cases x ltac:(lia)); [lia|].
              rewrite Hp in H. subst x. congruence. }
            destruct (Nat.eqb_spec (par x) (2 * i + 1)) as [Hq|].
            + replace (par x <? i) with false by lia. replace (par x <? S i) with false by lia.
              rewrite !andb_false_r. reflexivity.
            + f_equal. f_equal. lia. }
      assert (HrN : 2 * i + 2 < nN n D) by (apply ext_lt; auto).
      rewrite (rd_have n D sz) by auto. cbn [bind].
      apply ok_mono with (Q := fun s'' => shape n D sz s'' /\
         (forall y, hv s'' y = true -> ext n D y = true) /\
         (forall y, hv s'' y = if y =? 2 * i + 2 then true else hv s' y) /\
         nd s'' i = nd s' i /\
         (forall y, hv t y = true -> nd s'' y = nd t y) /\
         (forall y, hv s'' y = true -> hv t y = false ->
             nd s'' y = seed_half y (seed_hash (nd s'' (par y)) (par y)))).
      { destruct (hv s' (2 * i + 2)) eqn:Hr; cbn [negb].
        - split; [auto|]. split; [auto|]. split; [|auto].
          intros y. destruct (Nat.eqb_spec y (2 * i + 2)) as [->|]; auto.
        - rewrite slice_ok by (fold sz; lia). cbn [bind].
          apply put_step with (t0 := t) (i := i); auto; try lia.
          + rewrite firstn_length, skipn_length. fold sz. lia.
          + apply par_right.
          + rewrite Jh. replace (i =? 2 * i + 1) with false by lia. auto.
          + rewrite Jn. unfold seed_half. fold h. replace (2 * i + 2 + 1) with (S (2 * (i + 1))) by lia.
            rewrite Nat.even_succ, Nat.odd_mul. reflexivity.
          + intros y Hy. rewrite Jh. destruct (y =? 2 * i + 1); auto.
          + intros y Hy Hy0. rewrite Jh in Hy. destruct (Nat.eqb_spec y (2 * i + 1)) as [Hyx|].
            * left. rewrite Hyx, par_left. lia.
            * destruct (Hparb y Hy Hy0); auto. left; lia. }
      intros s'' (Ks & Ke & Kh & Kn & Kt & Kc).
      split; [auto|]. split; [auto|]. split; [|split; auto].
      intros x. rewrite !Kh, !Jh.
      destruct (Nat.eqb_spec x (2 * i + 2)) as [->|].
      * rewrite par_right, Er. replace (i =? 2 * i + 2) with false by lia.
        replace (i =? 2 * i + 1) with false by lia. rewrite Hhi. lia.
      * destruct (Nat.eqb_spec x (2 * i + 1)) as [->|].
        -- rewrite par_left, El. replace (i =? 2 * i + 2) with false by lia.
           replace (i =? 2 * i + 1) with false by lia. rewrite Hhi. lia.
        -- rewrite Ih at 1. destruct (ext n D x) eqn:Ex; cbn [andb]; auto. f_equal.
           destruct (Nat.eq_dec x 0) as [->|]; [reflexivity|].
           assert (par x <> i).
           { intros Hp. destruct (par_cases x ltac:(lia)); lia. }
           destruct (Nat.eqb_spec (par x) (2 * i + 2)) as [Hq|];
           [|destruct (Nat.eqb_spec (par x) (2 * i + 1)) as [Hq|]].
           ++ replace (par x <? i) with false by lia. replace (par x <? S i) with false by lia.
              rewrite !andb_false_r. reflexivity.
           ++ replace (par x <? i) with false by lia. replace (par x <? S i) with false by lia.
              rewrite !andb_false_r. reflexivity.
           ++ f_equal. f_equal. lia.
  - intros s (Is & Ie & Ih & In & Ic). split; [auto|]. split; [|auto].
    intros x. rewrite Ih at 1. destruct (ext n D x) eqn:Ex; cbn [andb]; auto. f_equal.
    destruct (Nat.eq_dec x 0) as [->|]; [reflexivity|]. f_equal.
    apply ext_lt in Ex. replace (par x <? 0 + (L + 1)) with true; [lia|].
    unfold nN in Ex. unfold par. pose proof (pow_pos D).
    assert ((x + 1) / 2 <= (2 ^ D + n - 1) / 2) by (apply Nat.div_le_mono; lia). lia.
Qed.

(** Values determined by the root: two expansions agree where both know a node. *)
Lemma expand_unique (val : nat -> bytes) s t :
  (forall x, 0 < x -> ext n D x = true -> val x = seed_half x (seed_hash (val (par x)) (par x))) ->
  (forall x, hv s x = ext n D x && (hv t x || (0 <? x) && hv s (par x))) ->
  (forall x, hv t x = true -> nd s x = val x) ->
  (forall x, hv s x = true -> hv t x = false ->
       nd s x = seed_half x (seed_hash (nd s (par x)) (par x))) ->
  forall x, hv s x = true -> nd s x = val x.
Proof. clear seed_pos Hn HnD Hsalt HE.
  intros Hv Hs Ht Hc x. induction x as [x IH] using (well_founded_induction lt_wf). intros Hx.
  destruct (hv t x) eqn:Htx; [auto|].
  rewrite Hc by auto. rewrite Hs, Htx in Hx. assert (0 < x) by lia.
  rewrite IH; [symmetry; apply Hv; auto; lia|apply par_lt; auto|lia].
Qed.

End SeedTree.
