(** Merkle trees (tree.c:362-581). *)

From Coq Require Import List NArith Arith Bool Lia ZifyBool ZifyNat ZifyN.
From Verif Require Import Base Params Env Spec Tree BaseFacts UtilFacts TreeShape TreeSeed TreeReveal TreeOpen TreeMissing.
Import ListNotations.

Section Merkle.
Variable E : env.
Variable P : paramset.
Hypothesis HE : env_bytes_ok E.
Let sz := digestSizeBytes P.

Variables (n D : nat).
Hypothesis Hn : 2 <= n.
Hypothesis HnD : n <= 2 ^ D.
Let ext_right_left := TreeMissing.ext_right_left n D Hn HnD.
Let ext_nonleaf_left := TreeMissing.ext_nonleaf_left n D Hn HnD.
Let ext_leaf := TreeMissing.ext_leaf n D Hn HnD.

(** The hash of inner node [p]. *)
Definition mhash (salt : bytes) (p : nat) (l r : bytes) : bytes :=
  hash E P (Some 3%N) [l; r; firstn (saltSizeBytes P) salt; intLE p] sz.

Lemma length_mhash salt p l r : length (mhash salt p l r) = sz.
Proof. unfold mhash, hash. apply HE. Qed.

(** The right operand: an existing index, even of a node that does not exist. *)
Definition mright (t : tree) (p : nat) : bytes :=
  if 2 * p + 2 <? nN n D then nd t (2 * p + 2) else [].

Variable salt : bytes.
Hypothesis Hsalt : saltSizeBytes P <= length salt.

Definition kids_known (s : tree) (p : nat) : bool :=
  hv s (2 * p + 1) && (negb (ext n D (2 * p + 2)) || hv s (2 * p + 2)).

Definition minv (t : tree) (i : nat) (s : tree) : Prop :=
  shape n D sz s /\
  (forall x, hv s x = true -> ext n D x = true) /\
  (forall p, hv s p = hv t p ||
     ((i <? 2 * p + 1) && ext n D (2 * p + 1) || (i <? 2 * p + 2) && ext n D (2 * p + 2)) && kids_known s p) /\
  (forall p, hv t p = true -> nd s p = nd t p) /\
  (forall p, hv s p = false -> nd s p = nd t p) /\
  (forall p, hv s p = true -> hv t p = false -> nd s p = mhash salt p (nd s (2 * p + 1)) (mright s p)).

Lemma merkle_step t s i : 0 < i -> minv t i s ->
  ok (computeParentHash E P salt i s) (minv t (i - 1)).
Proof.
  intros Hi (Is & Ie & Ih & It & Iz & Ic). unfold computeParentHash.
  rewrite (tree_exists_ok n D sz) by auto. cbn [bind].
  (* nothing changes *)
  assert (Hsame : forall s', (ext n D i = true -> hv s (par i) = true \/ kids_known s (par i) = false) ->
     s' = s -> ok (Ok s') (minv t (i - 1))).
  { intros s' Hk ->. cbn [ok]. split; [auto|]. split; [auto|]. split; [|auto].
    intros p. destruct (ext n D i) eqn:Ei.
    - destruct (Nat.eq_dec p (par i)) as [->|Hp].
      + destruct (Hk eq_refl) as [Hh|Hh]; [|rewrite Ih, Hh, !andb_false_r; reflexivity].
        rewrite Hh. symmetry. apply orb_true_iff.
        rewrite Ih in Hh. apply orb_true_iff in Hh. destruct Hh as [|Hh]; [auto|right].
        apply andb_true_iff in Hh. destruct Hh as [Ha Hb]. rewrite Hb, andb_true_r.
        apply orb_true_iff in Ha. apply orb_true_iff. destruct Ha as [Ha|Ha]; apply andb_true_iff in Ha; destruct Ha as [Ha Hc]; rewrite Hc, andb_true_r; [left|right]; clear - Ha; lia.
      + rewrite (Ih p) at 1. do 3 f_equal.
        * f_equal. destruct (Nat.eq_dec i (2 * p + 1)) as [->|]; [rewrite par_left in Hp; nlia|nlia].
        * f_equal. destruct (Nat.eq_dec i (2 * p + 2)) as [->|]; [rewrite par_right in Hp; nlia|nlia].
    - rewrite (Ih p) at 1. do 3 f_equal.
      + destruct (Nat.eq_dec i (2 * p + 1)) as [<-|]; [rewrite Ei, !andb_false_r; auto|f_equal; nlia].
      + destruct (Nat.eq_dec i (2 * p + 2)) as [<-|]; [rewrite Ei, !andb_false_r; auto|f_equal; nlia]. }
  destruct (ext n D i) eqn:Ei; cbn [negb]; [|apply Hsame; auto; discriminate].
  rewrite getParent_ok by auto. cbn [bind]. change ((i + 1) / 2 - 1) with (par i).
  set (p := par i) in *.
  assert (Hip : i = 2 * p + 1 \/ i = 2 * p + 2) by (apply par_cases; auto).
  pose proof (ext_lt n D i Ei) as HiN.
  assert (Hep : ext n D p = true) by (apply ext_par; auto).
  assert (El : ext n D (2 * p + 1) = true).
  { destruct Hip as [Hip|Hip]; [rewrite <- Hip; auto|apply ext_right_left; rewrite <- Hip; auto]. }
  assert (HpN : p < nN n D) by (apply ext_lt; auto).
  assert (HlN : 2 * p + 1 < nN n D) by (apply ext_lt; auto).
  rewrite (rd_have n D sz) by auto. cbn [bind].
  destruct (hv s p) eqn:Hhp; [apply Hsame; auto|].
  rewrite (rd_have n D sz) by auto. cbn [bind].
  destruct (hv s (2 * p + 1)) eqn:Hhl; cbn [negb].
  2:{ apply Hsame; auto. intros _. right. unfold kids_known. rewrite Hhl. reflexivity. }
  rewrite (tree_exists_ok n D sz) by auto. cbn [bind].
  assert (Hr : (if ext n D (2 * p + 2) then rd (t_haveNode s) (2 * p + 2) else Ok true)
               = Ok (negb (ext n D (2 * p + 2)) || hv s (2 * p + 2))).
  { destruct (ext n D (2 * p + 2)) eqn:Er; [|reflexivity].
    rewrite (rd_have n D sz) by (auto; apply ext_lt; auto). reflexivity. }
  rewrite Hr. cbn [bind].
  destruct (negb (ext n D (2 * p + 2)) || hv s (2 * p + 2)) eqn:Hk; cbn [negb].
  2:{ apply Hsame; auto. intros _. right. unfold kids_known. rewrite Hhl, Hk. reflexivity. }
  assert (Hkk : kids_known s p = true) by (unfold kids_known; rewrite Hhl, Hk; reflexivity).
  rewrite (rd_node n D sz) by auto. cbn [bind].
  rewrite slice_all by (unfold nd; rewrite (sh_nl _ _ _ _ Is); auto). cbn [bind].
  assert (Hrc : hasRightChild s p = Ok (2 * p + 2 <? nN n D)).
  { unfold hasRightChild. rewrite (sh_N _ _ _ _ Is). destruct (2 * p + 2 <? nN n D); [|reflexivity].
    rewrite (tree_exists_ok n D sz) by auto. rewrite Hep. reflexivity. }
  rewrite Hrc. cbn [bind].
  assert (Hrr : (if 2 * p + 2 <? nN n D
           then r <- rd (t_nodes s) (2 * p + 2);; slice r 0 (digestSizeBytes P) else Ok [])
           = Ok (mright s p)).
  { unfold mright. destruct (Nat.ltb_spec (2 * p + 2) (nN n D)); [|reflexivity].
    rewrite (rd_node n D sz) by auto. cbn [bind].
    rewrite slice_all by (unfold nd; rewrite (sh_nl _ _ _ _ Is); auto). reflexivity. }
  rewrite Hrr. cbn [bind]. rewrite slice0_ok by auto. cbn [bind].
  change (hash E P HASH_PREFIX_3 _ _) with (mhash salt p (nd s (2 * p + 1)) (mright s p)).
  eapply ok_mono; [apply put_node_ok with (n := n) (D := D) (sz := sz); auto; apply length_mhash|].
  intros s' (Ps & Pn & Ph).
  assert (Hnt : hv t p = false).
  { specialize (Ih p). rewrite Hhp in Ih. destruct (hv t p); auto. }
  assert (Hkp : forall q, q <> p -> kids_known s' q = kids_known s q \/ p = 2 * q + 1 \/ p = 2 * q + 2).
  { intros q Hq. unfold kids_known. rewrite !Ph.
    destruct (Nat.eqb_spec (2 * q + 1) p), (Nat.eqb_spec (2 * q + 2) p); auto; nlia. }
  assert (Hkpp : kids_known s' p = true).
  { unfold kids_known in *. rewrite !Ph. replace (2 * p + 1 =? p) with false by nlia.
    replace (2 * p + 2 =? p) with false by nlia. auto. }
  assert (Hnk : forall q, q <> p -> hv s q = true -> hv t q = false ->
             2 * q + 1 <> p /\ 2 * q + 2 <> p).
  { intros q Hq Hhq Htq. rewrite Ih, Htq in Hhq. cbn [orb] in Hhq.
    apply andb_true_iff in Hhq. destruct Hhq as [Hc Hkq]. unfold kids_known in Hkq. split.
    - intros He. rewrite He, Hhp in Hkq. discriminate.
    - intros He. rewrite He, Hhp, Hep in Hkq. rewrite andb_false_r in Hkq. discriminate. }
  split; [auto|]. split; [|split; [|split; [|split]]].
  - intros x. rewrite Ph. destruct (Nat.eqb_spec x p) as [->|]; auto.
  - intros q. rewrite Ph. destruct (Nat.eqb_spec q p) as [->|Hq].
    + rewrite Hkpp, El. rewrite andb_true_r. symmetry. apply orb_true_iff. right.
      apply orb_true_iff. destruct Hip as [Hip|Hip]; [left; rewrite andb_true_r; nlia|].
      right. rewrite Hip in Ei. rewrite Ei, andb_true_r. nlia.
    + rewrite (Ih q) at 1. f_equal.
      destruct (Hkp q Hq) as [Hkq|Hkq].
      * rewrite Hkq. f_equal. f_equal.
        -- f_equal. destruct (Nat.eq_dec i (2 * q + 1)) as [He|]; [nlia|nlia].
        -- f_equal. destruct (Nat.eq_dec i (2 * q + 2)) as [He|]; [nlia|nlia].
      * (* the parent of p has not been reached yet *)
        replace (i <? 2 * q + 1) with false by nlia. replace (i <? 2 * q + 2) with false by nlia.
        cbn [andb orb]. destruct (Nat.eq_dec p (i - 1)) as [Hz|Hz].
        -- nlia.
        -- replace (i - 1 <? 2 * q + 1) with false by nlia. 
           replace (i - 1 <? 2 * q + 2) with false by nlia. reflexivity.
  - intros q Hq. rewrite Pn. destruct (Nat.eqb_spec q p) as [->|]; [congruence|auto].
  - intros q. rewrite Ph, Pn. destruct (Nat.eqb_spec q p) as [->|]; [discriminate|auto].
  - intros q Hq Htq. rewrite Ph in Hq. rewrite !Pn. unfold mright. rewrite !Pn.
    destruct (Nat.eqb_spec q p) as [Hqp|Hqp].
    + rewrite Hqp. replace (2 * p + 1 =? p) with false by nlia.
      replace (2 * p + 2 =? p) with false by nlia. reflexivity.
    + destruct (Hnk q Hqp Hq Htq). replace (2 * q + 1 =? p) with false by nlia.
      replace (2 * q + 2 =? p) with false by nlia. apply Ic; auto.
Qed.

Lemma merkle_all t : shape n D sz t -> (forall x, hv t x = true -> ext n D x = true) ->
  ok (for_down (t_numNodes t) (computeParentHash E P salt) t) (fun s =>
    shape n D sz s /\
    (forall p, hv s p = hv t p || ext n D (2 * p + 1) && kids_known s p) /\
    (forall p, hv t p = true -> nd s p = nd t p) /\
    (forall p, hv s p = false -> nd s p = nd t p) /\
    (forall p, hv s p = true -> hv t p = false -> nd s p = mhash salt p (nd s (2 * p + 1)) (mright s p))).
Proof.
  intros Ht He. apply ok_mono with (Q := minv t 0).
  - apply ok_down with (I := minv t).
    + split; [auto|]. split; [auto|]. split; [|split; [auto|split; [auto|intros; congruence]]].
      intros p. rewrite (sh_N _ _ _ _ Ht).
      assert (Hb : (nN n D <? 2 * p + 1) && ext n D (2 * p + 1) || (nN n D <? 2 * p + 2) && ext n D (2 * p + 2) = false).
      { unfold ext. lia. }
      rewrite Hb. cbn [andb]. rewrite orb_false_r. reflexivity.
    + intros i s Hi Hs. apply merkle_step; auto. lia.
  - intros s (Is & Ie & Ih & It & Iz & Ic). split; [auto|]. split; [|auto].
    intros p. rewrite (Ih p) at 1. replace (0 <? 2 * p + 1) with true by lia.
    replace (0 <? 2 * p + 2) with true by lia. cbn [andb].
    destruct (ext n D (2 * p + 2)) eqn:Er; [rewrite (ext_right_left p Er)|rewrite orb_false_r]; reflexivity.
Qed.

(** ** buildMerkleTree *)
Definition full_merkle (L : list bytes) (t : tree) : Prop :=
  shape n D sz t /\ (forall x, hv t x = ext n D x) /\
  (forall l, l < n -> nd t (nF D + l) = firstn sz (nth l L [])) /\
  (forall x, x < nN n D -> ext n D x = false -> nd t x = zeros sz) /\
  (forall p, p + 1 < 2 ^ D -> ext n D p = true -> nd t p = mhash salt p (nd t (2 * p + 1)) (mright t p)).

Lemma buildMerkleTree_ok t (L : list bytes) : shape n D sz t -> (forall x, hv t x = false) ->
  (forall i, i < nN n D -> nd t i = zeros sz) ->
  length L = n -> (forall x, In x L -> sz <= length x) ->
  ok (buildMerkleTree E P t (map (@Some bytes) L) salt) (full_merkle L).
Proof.
  intros Ht Hh Hz HL Hlen. unfold buildMerkleTree. rewrite (sh_n _ _ _ _ Ht).
  apply ok_step with (Q := fun s => shape n D sz s /\
     (forall x, hv s x = (nF D <=? x) && (x <? nF D + n)) /\
     (forall l, l < n -> nd s (nF D + l) = firstn sz (nth l L [])) /\
     (forall x, x < nF D -> nd s x = zeros sz)).
  { set (I := fun i s => shape n D sz s /\
     (forall x, hv s x = (nF D <=? x) && (x <? nF D + i)) /\
     (forall l, l < i -> nd s (nF D + l) = firstn sz (nth l L [])) /\
     (forall x, x < nF D -> nd s x = zeros sz)).
    apply ok_mono with (Q := I (0 + n)); [|auto].
    apply ok_for with (I := I).
    - split; [auto|]. split; [intros x; rewrite Hh; lia|]. split; [intros; lia|].
      intros x Hx. apply Hz. unfold nN, nF in *. lia.
    - intros i s Hi (Is & Ih & In & Iz).
      assert (Hrd : rd (map (@Some bytes) L) i = Ok (Some (nth i L []))).
      { rewrite (rd_ok _ _ (Some ([] : bytes))) by (rewrite map_length; lia). f_equal. apply (map_nth (@Some bytes) L ([] : bytes) i). }
      rewrite Hrd. cbn [bind]. rewrite (sh_sz _ _ _ _ Is).
      rewrite slice0_ok by (apply Hlen; apply nth_In; lia). cbn [bind].
      rewrite (firstLeaf_eq n D sz) by auto.
      eapply ok_mono; [apply put_node_ok with (n := n) (D := D) (sz := sz); auto|].
      + unfold nN, nF. lia.
      + rewrite firstn_length. assert (sz <= length (nth i L [])) by (apply Hlen; apply nth_In; lia). lia.
      + intros s' (Ps & Pn & Ph). split; [auto|]. split; [|split].
        * intros x. rewrite Ph, Ih. destruct (Nat.eqb_spec x (nF D + i)); lia.
        * intros l Hl. rewrite Pn. destruct (Nat.eqb_spec (nF D + l) (nF D + i)) as [Hli|].
          -- replace l with i by lia. reflexivity.
          -- apply In. lia.
        * intros x Hx. rewrite Pn. replace (x =? nF D + i) with false by lia. auto. }
  intros t1 (Hs1 & Hh1 & Hn1 & Hz1).
  eapply ok_mono; [apply merkle_all; auto|].
  { intros x. rewrite Hh1. intros Hx. replace x with (nF D + (x - nF D)) by lia. apply ext_leaf. lia. }
  intros s (Is & Ih & It & Iz & Ic).
  assert (Hhe : forall k x, nN n D - x <= k -> hv s x = ext n D x).
  { induction k as [|k IH]; intros x Hx.
    - assert (Ex : ext n D x = false) by (unfold ext; lia). rewrite Ex, Ih, Hh1.
      assert (El : ext n D (2 * x + 1) = false) by (unfold ext; lia). rewrite El. unfold nN, nF in *. lia.
    - destruct (Nat.lt_ge_cases x (nF D)) as [Hlt|Hge].
      + rewrite Ih, Hh1. replace (nF D <=? x) with false by lia. cbn [andb orb].
        rewrite ext_nonleaf_left by (unfold nF in *; lia). unfold kids_known.
        rewrite !IH by lia. rewrite ext_nonleaf_left by (unfold nF in *; lia).
        destruct (ext n D x); auto. destruct (ext n D (2 * x + 2)); auto.
      + destruct (Nat.lt_ge_cases x (nF D + n)).
        * replace x with (nF D + (x - nF D)) by lia. rewrite ext_leaf by lia. rewrite Ih, Hh1.
          apply orb_true_iff. left. lia.
        * assert (Ex : ext n D x = false) by (unfold ext, nN, nF in *; lia). rewrite Ex, Ih, Hh1.
          assert (El : ext n D (2 * x + 1) = false) by (unfold ext, nN, nF in *; lia). rewrite El. lia. }
  split; [auto|]. split; [intros x; apply (Hhe (nN n D - x)); lia|]. split; [|split].
  - intros l Hl. rewrite It by (rewrite Hh1; lia). auto.
  - intros x Hx Ex. rewrite Iz by (rewrite (Hhe (nN n D - x)) by lia; auto).
    apply Hz1. destruct (Nat.lt_ge_cases x (nF D)); auto.
    replace x with (nF D + (x - nF D)) in Ex by lia. rewrite ext_leaf in Ex; [discriminate|].
    unfold nN, nF in *. lia.
  - intros p Hp Ep. apply Ic; [rewrite (Hhe (nN n D - p)) by lia; auto|]. rewrite Hh1. unfold nF. lia.
Qed.

End Merkle.
