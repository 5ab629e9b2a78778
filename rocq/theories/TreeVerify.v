(** Opening and verifying Merkle trees (tree.c:473-581). *)

From Coq Require Import List NArith Arith Bool Lia ZifyBool ZifyNat ZifyN.
From Verif Require Import Base Params Env Spec Tree BaseFacts UtilFacts ApiFacts SigSpec TreeShape TreeSeed
  TreeReveal TreeOpen TreeMissing TreeMerkle.
Import ListNotations.

(** Leaf [l] is supplied. *)
Definition given (LD : list (option bytes)) (l : nat) : bool :=
  match nth l LD None with Some _ => true | None => false end.

Section Verify.
Variable E : env.
Variable P : paramset.
Hypothesis HE : env_bytes_ok E.
Let sz := digestSizeBytes P.
Variables (n D : nat).
Hypothesis Hn : 2 <= n.
Hypothesis HnD : n <= 2 ^ D.
Let ext_right_left := TreeMissing.ext_right_left n D Hn HnD.
Let ext_nonleaf_left := TreeMissing.ext_nonleaf_left n D Hn HnD.
Let ext_leaf := TreeMissing.ext_leaf n D Hn HnD.

(** ** copy_leaves *)
Definition given_node (LD : list (option bytes)) (x : nat) : bool :=
  (nF D <=? x) && (x <? nF D + n) && given LD (x - nF D).

Lemma copy_leaves_ok (LD : list (option bytes)) : length LD = n -> (forall l (d : bytes), nth l LD None = Some d -> sz <= length d) ->
  forall k i t, i + k = n -> shape n D sz t ->
  ok (copy_leaves k i LD t) (fun o =>
    match o with
    | None => exists l, i <= l < n /\ given LD l = true /\ hv t (nF D + l) = true
    | Some s => shape n D sz s /\
       (forall l, i <= l < n -> given LD l = true -> hv t (nF D + l) = false) /\
       (forall x, hv s x = hv t x || (nF D + i <=? x) && given_node LD x) /\
       (forall l d, i <= l < n -> nth l LD None = Some d -> nd s (nF D + l) = firstn sz d) /\
       (forall x, (nF D + i <=? x) && given_node LD x = false -> nd s x = nd t x)
    end).
Proof.
  intros HLD Hlen. induction k as [|k IH]; intros i t Hi Ht.
  - cbn [copy_leaves ok]. split; [auto|]. split; [intros; lia|]. split; [|split; [intros; lia|auto]].
    intros x. unfold given_node. destruct (given LD (x - nF D)); lia.
  - cbn [copy_leaves]. rewrite (rd_ok _ _ None) by lia. cbn [bind].
    assert (Hgi : given_node LD (nF D + i) = given LD i).
    { unfold given_node. replace (nF D + i - nF D) with i by lia. destruct (given LD i); lia. }
    assert (Hsp : forall x, (nF D + i <=? x) && given_node LD x
        = (x =? nF D + i) && given LD i || (nF D + S i <=? x) && given_node LD x).
    { intros x. destruct (Nat.eqb_spec x (nF D + i)) as [Hx|Hx].
      - rewrite Hx, Hgi. destruct (given LD i); lia.
      - destruct (given_node LD x), (given LD i); lia. }
    destruct (nth i LD None) as [d|] eqn:Ei.
    + assert (Hg : given LD i = true) by (unfold given; rewrite Ei; reflexivity).
      rewrite (firstLeaf_eq n D sz) by auto. rewrite (rd_have n D sz) by (auto; unfold nN, nF; lia). cbn [bind].
      destruct (hv t (nF D + i)) eqn:Eh.
      * cbn [ok]. exists i. split; [lia|auto].
      * rewrite (sh_sz _ _ _ _ Ht). pose proof (Hlen i d Ei) as Hd.
        rewrite slice0_ok by auto. cbn [bind].
        pose proof (put_node_ok n D sz t (nF D + i) (firstn sz d) Ht) as Hp.
        apply ok_ex in Hp; [|unfold nN, nF; lia|rewrite firstn_length; lia].
        destruct Hp as (t1 & -> & Hs1 & Hn1 & Hh1). cbn [bind].
        eapply ok_mono; [apply IH; [lia|auto]|].
        intros [s|].
        -- intros (As & Ag & Ah & An & Ao). split; [auto|]. split; [|split; [|split]].
           ++ intros l Hl Hgl. destruct (Nat.eq_dec l i) as [->|]; [auto|].
              specialize (Ag l ltac:(lia) Hgl). rewrite Hh1 in Ag.
              destruct (Nat.eqb_spec (nF D + l) (nF D + i)); [lia|auto].
           ++ intros x. rewrite Ah, Hh1, Hsp, Hg, andb_true_r.
              destruct (x =? nF D + i); [rewrite orb_true_r; reflexivity|reflexivity].
           ++ intros l d' Hl Hd'. destruct (Nat.eq_dec l i) as [Hli|Hli].
              ** rewrite Hli in *. rewrite Ao.
                 { rewrite Hn1, Nat.eqb_refl. congruence. }
                 replace (nF D + S i <=? nF D + i) with false by lia. reflexivity.
              ** apply An; auto. lia.
           ++ intros x. rewrite Hsp, Hg, andb_true_r. intros Hx. apply orb_false_iff in Hx. destruct Hx as [Hx1 Hx2].
              rewrite Ao by auto. rewrite Hn1, Hx1. reflexivity.
        -- intros (l & Hl & Hg' & Hh'). exists l. split; [lia|]. split; [auto|]. rewrite Hh1 in Hh'.
           destruct (Nat.eqb_spec (nF D + l) (nF D + i)); [lia|auto].
    + assert (Hg : given LD i = false) by (unfold given; rewrite Ei; reflexivity).
      eapply ok_mono; [apply IH; [lia|auto]|].
      intros [s|].
      * intros (As & Ag & Ah & An & Ao). split; [auto|]. split; [|split; [|split]].
        -- intros l Hl Hgl. destruct (Nat.eq_dec l i) as [->|]; [congruence|]. apply Ag; auto. lia.
        -- intros x. rewrite Ah, Hsp, Hg, andb_false_r. reflexivity.
        -- intros l d' Hl Hd'. destruct (Nat.eq_dec l i) as [->|]; [congruence|]. apply An; auto. lia.
        -- intros x. rewrite Hsp, Hg, andb_false_r. intros Hx. apply Ao; auto.
      * intros (l & Hl & Hg' & Hh'). exists l. split; [lia|]. auto.
Qed.

(** ** verifyMerkleTree on any tree *)
Definition known (t : tree) (LD : list (option bytes)) (x : nat) : bool := hv t x || given_node LD x.

Definition checked (salt : bytes) (LD : list (option bytes)) (t s : tree) : Prop :=
  shape n D sz s /\
  (forall l, l < n -> given LD l = true -> hv t (nF D + l) = false) /\
  (forall p, hv s p = known t LD p || ext n D (2 * p + 1) && kids_known n D s p) /\
  (forall l d, l < n -> nth l LD None = Some d -> nd s (nF D + l) = firstn sz d) /\
  (forall x, hv t x = true -> nd s x = nd t x) /\
  (forall x, hv s x = false -> nd s x = nd t x) /\
  (forall p, hv s p = true -> known t LD p = false ->
     nd s p = mhash E P salt p (nd s (2 * p + 1)) (mright n D s p)).

Lemma verifyMerkleTree_ok salt (LD : list (option bytes)) t : saltSizeBytes P <= length salt ->
  shape n D sz t -> (forall x, hv t x = true -> ext n D x = true) ->
  length LD = n -> (forall l (d : bytes), nth l LD None = Some d -> sz <= length d) ->
  ok (verifyMerkleTree E P t LD salt) (fun o =>
    match o with
    | Some s => checked salt LD t s /\ hv s 0 = true
    | None => (exists l, l < n /\ given LD l = true /\ hv t (nF D + l) = true) \/
              (exists s, checked salt LD t s /\ hv s 0 = false)
    end).
Proof.
  intros Hsalt Ht He HLD Hlen. unfold verifyMerkleTree. rewrite (sh_n _ _ _ _ Ht).
  eapply ok_step; [apply copy_leaves_ok; eauto|]. cbv beta. intros [t1|].
  2:{ intros (l & Hl & Hg & Hh). cbn [ok]. left. exists l. split; [lia|auto]. }
  intros (As & Ag & Ah & An & Ao). rewrite Nat.add_0_r in *.
  assert (Hgn : forall x, (nF D <=? x) && given_node LD x = given_node LD x).
  { intros x. unfold given_node. destruct (nF D <=? x); reflexivity. }
  assert (Ah' : forall x, hv t1 x = known t LD x) by (intros x; rewrite Ah, Hgn; reflexivity).
  assert (Hgl : forall l d, l < n -> nth l LD None = Some d -> given_node LD (nF D + l) = true).
  { intros l d Hl Hd. unfold given_node. replace (nF D + l - nF D) with l by lia. unfold given. rewrite Hd. lia. }
  eapply ok_step; [apply merkle_all; eauto|].
  { intros x. rewrite Ah'. unfold known. intros Hx. apply orb_true_iff in Hx. destruct Hx as [Hx|Hx]; auto.
    unfold given_node in Hx. apply andb_true_iff in Hx. destruct Hx as [Hx _].
    replace x with (nF D + (x - nF D)) by lia. apply ext_leaf. lia. }
  cbv beta. intros s (Is & Ih & It & Iz & Ic).
  assert (Hc : checked salt LD t s).
  { split; [auto|]. split; [intros l Hl; apply Ag; lia|]. split; [intros p; rewrite (Ih p), Ah'; reflexivity|].
    split; [|split; [|split]].
    - intros l d Hl Hd. rewrite It.
      + apply An; auto. lia.
      + rewrite Ah'. unfold known. rewrite (Hgl l d Hl Hd). apply orb_true_r.
    - intros x Hx. rewrite It by (rewrite Ah'; unfold known; rewrite Hx; reflexivity).
      apply Ao. rewrite Hgn. destruct (given_node LD x) eqn:Eg; auto.
      unfold given_node in Eg. apply andb_true_iff in Eg. destruct Eg as [Eg1 Eg2].
      rewrite <- (Ag (x - nF D)) by (auto; lia). replace (nF D + (x - nF D)) with x by lia. auto.
    - intros x Hx. rewrite Iz by auto. apply Ao. rewrite Hgn.
      rewrite Ih, Ah' in Hx. unfold known in Hx. destruct (given_node LD x); auto. rewrite orb_true_r in Hx. discriminate.
    - intros p Hp Hk. apply Ic; auto. rewrite Ah'. auto. }
  rewrite (rd_have n D sz) by (auto; unfold nN; lia). cbn [bind].
  destruct (hv s 0) eqn:E0; cbn [ok]; [auto|]. right. exists s. auto.
Qed.

(** ** Opening *)
Section Opening.
Variable miss : list nat.
Hypothesis Hmiss : Forall (fun l => l < n) miss.

Definition mrevealed (m : nat -> bool) (rv : list nat) : Prop :=
  missing_spec n D miss m /\ NoDup rv /\ (forall r, In r rv <-> Rm n D m r) /\ length rv <= n.

Lemma mrevealed_ok s t : shape n D s t -> exists m rv, getRevealedMerkleNodes t miss = Ok rv /\ mrevealed m rv.
Proof.
  intros Ht. pose proof (getRevealedMerkleNodes_ok n D Hn HnD miss Hmiss s t Ht) as H. apply ok_ex in H.
  destruct H as (rv & He & m & H). exists m, rv. auto.
Qed.

Lemma mrevealed_lt m rv r : mrevealed m rv -> In r rv -> r < nN n D.
Proof. intros (_ & _ & Hin & _) Hr. apply Hin in Hr. destruct Hr as (_ & He & _). apply (ext_lt n D r He). Qed.

Lemma openMerkleTree_ok t m rv : shape n D sz t -> getRevealedMerkleNodes t miss = Ok rv -> mrevealed m rv ->
  openMerkleTree t miss = Ok (concat (map (nd t) rv)).
Proof.
  intros Ht Hrv Hr. unfold openMerkleTree. rewrite Hrv. cbn [bind].
  rewrite (mapM_pure _ (nd t)); [reflexivity|].
  intros r Hin. pose proof (mrevealed_lt m rv r Hr Hin) as Hlt.
  rewrite (rd_node n D sz) by auto. cbn [bind]. rewrite (sh_sz _ _ _ _ Ht).
  apply slice_all. unfold nd. rewrite (sh_nl _ _ _ _ Ht); auto.
Qed.

(** addMerkleNodes on any input. *)
Lemma addMerkleNodes_ok t m rv input : shape n D sz t -> (forall x, hv t x = false) ->
  length miss < n -> 0 < sz ->
  getRevealedMerkleNodes t miss = Ok rv -> mrevealed m rv ->
  exists o, addMerkleNodes t miss input = Ok o /\
    match o with
    | None => exceeds_int (length input) = true \/ length input <> length rv * sz
    | Some t' => exceeds_int (length input) = false /\ length input = length rv * sz /\ shape n D sz t' /\
        (forall x, hv t' x = contains rv x) /\ (forall x, ~ In x rv -> nd t' x = nd t x) /\
        (forall j, j < length rv -> nd t' (nth j rv 0) = blk sz input j)
    end.
Proof.
  intros Ht Hh Hlm Hsz Hrv Hr. unfold addMerkleNodes. rewrite (sh_n _ _ _ _ Ht).
  replace (length miss <? n) with true by lia. cbn [c_assert bind].
  destruct (exceeds_int (length input)) eqn:Ei; [exists None; auto|].
  rewrite Hrv. cbn [bind].
  assert (H0 : contains rv 0 = false).
  { apply contains_false. intros Hin. apply Hr in Hin. destruct Hin as [Hin _]. lia. }
  rewrite H0. cbn [negb c_assert bind]. rewrite (sh_sz _ _ _ _ Ht).
  pose proof (fun r => mrevealed_lt m rv r Hr) as Hlt.
  destruct (Nat.lt_ge_cases (length input) (length rv * sz)) as [Hs|Hs].
  - pose proof (put_revealed_short n D sz rv t input 0 Ht Hlt) as Hp. rewrite Nat.sub_0_r in Hp.
    rewrite Hp by lia. exists None. cbn [bind]. split; [reflexivity|]. right. lia.
  - destruct (put_revealed_ok n D sz rv t input 0 Ht) as (t1 & He & Hs1 & Hh1 & Hno & Hj); auto.
    { apply Hr. }
    rewrite Nat.sub_0_r in He. rewrite He. cbn [bind].
    destruct (Nat.eqb_spec (length input - length rv * sz) 0) as [Hz|Hz].
    + exists (Some t1). split; [reflexivity|]. split; [auto|]. split; [lia|]. split; [auto|].
      split; [intros x; rewrite Hh1, Hh; reflexivity|]. split; auto.
    + exists None. split; [reflexivity|]. right. lia.
Qed.

(** The nodes that are neither missing nor above only missing ones are recomputed. *)
Lemma known_up m rv salt (LD : list (option bytes)) t s : mrevealed m rv ->
  (forall x, hv t x = contains rv x) ->
  (forall l, l < n -> ~ In l miss -> given LD l = true) ->
  checked salt LD t s ->
  forall x, ext n D x = true -> m x = false -> hv s x = true.
Proof.
  intros Hr Ht Hg (Cs & Cg & Ch & _).
  assert (Hc : forall x, 0 < x -> ext n D x = true -> m (par x) = false -> (m x = false -> hv s x = true) -> hv s x = true).
  { intros x H0 Ex Hp Hx. destruct (m x) eqn:Em; auto. rewrite Ch. unfold known. rewrite Ht.
    assert (Hin : contains rv x = true) by (apply contains_In; apply Hr; split; [auto|]; auto). rewrite Hin. reflexivity. }
  assert (H : forall k x, nN n D - x <= k -> ext n D x = true -> m x = false -> hv s x = true).
  { induction k as [|k IH]; intros x Hk Ex Hx; pose proof (ext_lt n D x Ex) as HxN; [lia|].
    destruct (Nat.lt_ge_cases x (nF D)) as [Hlt|Hge].
    - assert (El : ext n D (2 * x + 1) = true) by (rewrite ext_nonleaf_left by (unfold nF in *; lia); auto).
      rewrite Ch, El. cbn [andb]. apply orb_true_iff. right. unfold kids_known.
      assert (Hl : hv s (2 * x + 1) = true).
      { apply Hc; [lia|auto|rewrite par_left; auto|]. intros. apply IH; auto. lia. }
      rewrite Hl. cbn [andb]. destruct (ext n D (2 * x + 2)) eqn:Er; [cbn [negb orb]|reflexivity].
      apply Hc; [lia|auto|rewrite par_right; auto|]. intros. apply IH; auto. lia.
    - rewrite Ch. unfold known. replace (given_node LD x) with true; [rewrite orb_true_r; reflexivity|].
      symmetry. unfold given_node. assert (Hl : x - nF D < n) by (unfold nN, nF in *; lia).
      replace x with (nF D + (x - nF D)) in Hx by lia.
      destruct Hr as ((_ & Ml & _) & _). rewrite Ml in Hx by auto. apply contains_false in Hx.
      rewrite Hg by auto. lia. }
  intros x. apply (H (nN n D - x)). lia.
Qed.

Lemma merkle_complete m rv salt (L : list bytes) (LD : list (option bytes)) T t s : mrevealed m rv ->
  full_merkle E P n D salt L T ->
  (forall x, x < nN n D -> ext n D x = false -> nd t x = zeros sz) ->
  (forall x, hv t x = contains rv x) ->
  (forall r, In r rv -> nd t r = nd T r) ->
  (forall l, l < n -> In l miss -> nth l LD None = None) ->
  (forall l, l < n -> ~ In l miss -> nth l LD None = Some (nth l L [])) ->
  checked salt LD t s ->
  forall x, ext n D x = true -> m x = false -> hv s x = true /\ nd s x = nd T x.
Proof.
  intros Hr (Ts & Th & Tl & Tz & Tc) Htz Hth Htv Hm1 Hm2 Hck.
  assert (Hg : forall l, l < n -> ~ In l miss -> given LD l = true).
  { intros l Hl Hnl. unfold given. rewrite Hm2; auto. }
  pose proof (known_up m rv salt LD t s Hr Hth Hg Hck) as Hku.
  pose proof Hck as (Cs & Cg & Ch & Cl & Ct & Cz & Cc).
  assert (Hlow : forall x, hv s x = true -> ext n D x = true).
  { intros x Hx. rewrite Ch in Hx. apply orb_true_iff in Hx. destruct Hx as [Hx|Hx].
    - unfold known in Hx. apply orb_true_iff in Hx. destruct Hx as [Hx|Hx].
      + rewrite Hth in Hx. apply contains_In in Hx. apply Hr in Hx. apply Hx.
      + unfold given_node in Hx. apply andb_true_iff in Hx. destruct Hx as [Hx _].
        replace x with (nF D + (x - nF D)) by lia. apply ext_leaf. lia.
    - apply andb_true_iff in Hx. destruct Hx as [Hx _]. apply (ext_child_nonleaf n D Hn HnD x Hx). }
  assert (H : forall k x, nN n D - x <= k -> ext n D x = true -> m x = false -> nd s x = nd T x).
  { induction k as [|k IH]; intros x Hk Ex Hx; pose proof (ext_lt n D x Ex) as HxN; [lia|].
    assert (Hnr : contains rv x = false).
    { apply contains_false. intros Hin. apply Hr in Hin. destruct Hin as (_ & _ & Hin & _). congruence. }
    destruct (Nat.lt_ge_cases x (nF D)) as [Hlt|Hge].
    - rewrite Cc.
      + rewrite (Tc x) by (auto; unfold nF in *; lia).
        assert (El : ext n D (2 * x + 1) = true) by (rewrite ext_nonleaf_left by (unfold nF in *; lia); auto).
        assert (Hc : forall y, 0 < y -> x < y -> ext n D y = true -> m (par y) = false -> nd s y = nd T y).
        { intros y H0 Hy Ey Hp. destruct (m y) eqn:Em; [|apply IH; auto; lia].
          assert (Hin : In y rv) by (apply Hr; split; [auto|]; auto).
          rewrite Ct, Htv; auto. rewrite Hth. apply contains_In. auto. }
        rewrite (Hc (2 * x + 1)) by (rewrite ?par_left; auto; lia). f_equal.
        unfold mright. destruct (Nat.ltb_spec (2 * x + 2) (nN n D)); [|reflexivity].
        destruct (ext n D (2 * x + 2)) eqn:Er; [apply Hc; rewrite ?par_right; auto; lia|].
        rewrite Tz by auto. rewrite Cz; [apply Htz; auto|].
        destruct (hv s (2 * x + 2)) eqn:Ehs; auto. apply Hlow in Ehs. congruence.
      + apply Hku; auto.
      + unfold known. rewrite Hth, Hnr. unfold given_node. replace (nF D <=? x) with false by lia. reflexivity.
    - assert (Hl : x - nF D < n) by (unfold nN, nF in *; lia).
      replace x with (nF D + (x - nF D)) in Hx |- * by lia.
      destruct Hr as ((_ & Ml & _) & _). rewrite Ml in Hx by auto. apply contains_false in Hx.
      rewrite Tl by auto. apply Cl; auto. }
  intros x Ex Hx. split; [auto|apply (H (nN n D - x)); auto].
Qed.

End Opening.

(** ** Binding *)
Lemma mhash_collide s1 s2 salt1 salt2 p : saltSizeBytes P <= length salt1 -> saltSizeBytes P <= length salt2 ->
  shape n D sz s1 -> shape n D sz s2 -> 2 * p + 1 < nN n D ->
  nd s1 p = mhash E P salt1 p (nd s1 (2 * p + 1)) (mright n D s1 p) ->
  nd s2 p = mhash E P salt2 p (nd s2 (2 * p + 1)) (mright n D s2 p) ->
  nd s1 p = nd s2 p ->
  nd s1 (2 * p + 1) <> nd s2 (2 * p + 1) \/ mright n D s1 p <> mright n D s2 p \/
  firstn (saltSizeBytes P) salt1 <> firstn (saltSizeBytes P) salt2 ->
  collide E P (Some 3%N)
    (nd s1 (2 * p + 1) ++ mright n D s1 p ++ firstn (saltSizeBytes P) salt1 ++ intLE p)
    (nd s2 (2 * p + 1) ++ mright n D s2 p ++ firstn (saltSizeBytes P) salt2 ++ intLE p).
Proof.
  intros Hs1 Hs2 S1 S2 Hp H1 H2 He Hd.
  assert (Hl1 : forall s i, shape n D sz s -> i < nN n D -> length (nd s i) = sz).
  { intros s i Hs Hi. unfold nd. apply (sh_nl _ _ _ _ Hs); auto. }
  split.
  - intros Heq. apply app_inj_len in Heq; [|rewrite !Hl1; auto]. destruct Heq as [Ha Heq].
    apply app_inj_len in Heq.
    2:{ unfold mright. destruct (Nat.ltb_spec (2 * p + 2) (nN n D)); [rewrite !Hl1; auto|reflexivity]. }
    destruct Heq as [Hb Heq]. apply app_inj_len in Heq; [|rewrite !firstn_length; lia].
    destruct Heq as [Hc _]. destruct Hd as [Hd|[Hd|Hd]]; auto.
  - unfold mhash in H1, H2. unfold hash in *. cbn [concat] in *. rewrite !app_nil_r in *. congruence.
Qed.

(** Every ancestor of leaf [l] is the hash of its children. *)
Definition path_hashed (salt : bytes) (s : tree) (l : nat) : Prop :=
  forall d, 0 < d <= D -> nd s (anc D l d - 1) =
     mhash E P salt (anc D l d - 1) (nd s (2 * (anc D l d - 1) + 1)) (mright n D s (anc D l d - 1)).

Lemma path_binding s1 s2 salt1 salt2 l : saltSizeBytes P <= length salt1 -> saltSizeBytes P <= length salt2 ->
  shape n D sz s1 -> shape n D sz s2 -> l < n ->
  path_hashed salt1 s1 l -> path_hashed salt2 s2 l ->
  nd s1 0 = nd s2 0 ->
  nd s1 (nF D + l) <> nd s2 (nF D + l) \/ firstn (saltSizeBytes P) salt1 <> firstn (saltSizeBytes P) salt2 ->
  exists p, collide E P (Some 3%N)
    (nd s1 (2 * p + 1) ++ mright n D s1 p ++ firstn (saltSizeBytes P) salt1 ++ intLE p)
    (nd s2 (2 * p + 1) ++ mright n D s2 p ++ firstn (saltSizeBytes P) salt2 ++ intLE p).
Proof.
  intros Hs1 Hs2 S1 S2 Hl P1 P2 H0 Hd. pose proof (D_pos n D Hn HnD) as HD.
  destruct Hd as [Hd|Hd].
  - assert (Hleaf : anc D l 0 - 1 = nF D + l) by (rewrite anc_0; unfold nF; pose proof (pow_pos D); lia).
    assert (Hroot : anc D l D - 1 = 0) by (rewrite (anc_root n D Hn HnD l Hl); reflexivity).
    (* lowest level at which the values agree *)
    assert (Hex : exists d, d < D /\ nd s1 (anc D l d - 1) <> nd s2 (anc D l d - 1) /\
                            nd s1 (anc D l (S d) - 1) = nd s2 (anc D l (S d) - 1)).
    { assert (H : forall k, k <= D -> nd s1 (anc D l k - 1) <> nd s2 (anc D l k - 1) ->
         exists d, d < D /\ nd s1 (anc D l d - 1) <> nd s2 (anc D l d - 1) /\
                            nd s1 (anc D l (S d) - 1) = nd s2 (anc D l (S d) - 1)).
      { intros k Hk. remember (D - k) as j. revert k Hk Heqj. induction j as [|j IH]; intros k Hk Hj Hne.
        - exfalso. apply Hne. replace k with D by lia. rewrite Hroot. auto.
        - destruct (list_eq_dec N.eq_dec (nd s1 (anc D l (S k) - 1)) (nd s2 (anc D l (S k) - 1))) as [He|He].
          + exists k. split; [lia|auto].
          + apply (IH (S k)); auto; lia. }
      apply (H 0); [lia|]. rewrite Hleaf. auto. }
    destruct Hex as (d & Hdd & Hne & Heq). set (q := anc D l (S d) - 1) in *.
    pose proof (anc_ge2 n D Hn HnD l d Hl Hdd) as Hg.
    assert (Hq : par (anc D l d - 1) = q) by (apply (par_anc n D Hn HnD l d Hl Hdd)).
    pose proof (ext_anc n D Hn HnD l d Hl ltac:(lia)) as Hx. apply ext_lt in Hx.
    assert (Hc : anc D l d - 1 = 2 * q + 1 \/ anc D l d - 1 = 2 * q + 2) by (rewrite <- Hq; apply par_cases; lia).
    exists q. apply mhash_collide; auto; try (apply P1 || apply P2; lia); [lia|].
    destruct Hc as [Hc|Hc]; rewrite Hc in Hne; [auto|]. right. left. unfold mright.
    rewrite Hc in Hx. replace (2 * q + 2 <? nN n D) with true by lia. auto.
  - exists 0. pose proof (P1 D ltac:(lia)) as P1r. pose proof (P2 D ltac:(lia)) as P2r.
    rewrite (anc_root n D Hn HnD l Hl) in P1r, P2r. change (1 - 1) with 0 in *.
    apply mhash_collide; auto. unfold nN. pose proof (pow_pos D).
    destruct D; [lia|]. rewrite pow_S in *. pose proof (pow_pos n0). lia.
Qed.

Lemma full_path salt L T l : full_merkle E P n D salt L T -> l < n -> path_hashed salt T l.
Proof.
  intros (Ts & Th & Tl & Tz & Tc) Hl d Hd. apply Tc.
  - pose proof (anc_rng n D Hn HnD l d Hl ltac:(lia)). assert (2 ^ D = 2 ^ d * 2 ^ (D - d)).
    { rewrite <- Nat.pow_add_r. f_equal. lia. }
    destruct d; [lia|]. rewrite pow_S in *. pose proof (pow_pos d). pose proof (pow_pos (D - S d)).
    assert (1 <= anc D l (S d)) by lia. nia.
  - apply (ext_anc n D Hn HnD l d Hl). lia.
Qed.

Lemma checked_path miss m rv salt (LD : list (option bytes)) t s l : Forall (fun l => l < n) miss -> mrevealed miss m rv ->
  (forall x, hv t x = contains rv x) -> checked salt LD t s -> hv s 0 = true ->
  l < n -> ~ In l miss -> path_hashed salt s l.
Proof.
  intros Hmiss Hr Hth (Cs & Cg & Ch & Cl & Ct & Cz & Cc) H0 Hl Hnl d Hd.
  assert (Hnm : forall k, k <= D -> m (anc D l k - 1) = false).
  { intros k Hk. destruct (m (anc D l k - 1)) eqn:Em; auto. exfalso.
    pose proof (m_path n D Hn HnD miss Hmiss m (proj1 Hr) l k 0 Hl ltac:(lia) Hk Em) as Hm0.
    replace (anc D l 0 - 1) with (nF D + l) in Hm0 by (rewrite anc_0; unfold nF; pose proof (pow_pos D); lia).
    destruct Hr as ((_ & Ml & _) & _). rewrite Ml in Hm0 by auto. apply contains_In in Hm0. auto. }
  assert (Hni : forall k, 0 < k <= D -> known t LD (anc D l k - 1) = false).
  { intros k Hk. unfold known. rewrite Hth. apply orb_false_iff. split.
    - apply contains_false. intros Hin. apply Hr in Hin. destruct Hin as (_ & _ & Hin & _). rewrite Hnm in Hin by lia. discriminate.
    - unfold given_node. replace (nF D <=? anc D l k - 1) with false; [reflexivity|].
      pose proof (anc_rng n D Hn HnD l k Hl ltac:(lia)). assert (2 ^ D = 2 ^ k * 2 ^ (D - k)).
      { rewrite <- Nat.pow_add_r. f_equal. lia. }
      destruct k; [lia|]. rewrite pow_S in *. pose proof (pow_pos k). pose proof (pow_pos (D - S k)).
      unfold nF. symmetry. apply Nat.leb_gt. nia. }
  apply Cc; auto.
  (* known from the root downwards *)
  assert (Hdn : forall j k, k + j = D -> 0 < k -> hv s (anc D l k - 1) = true).
  { induction j as [|j IH]; intros k Hk H0k.
    - replace k with D by lia. rewrite (anc_root n D Hn HnD l Hl). auto.
    - specialize (IH (S k) ltac:(lia) ltac:(lia)). rewrite Ch, Hni in IH by lia. cbn [orb] in IH.
      apply andb_true_iff in IH. destruct IH as [_ IH]. unfold kids_known in IH. apply andb_true_iff in IH.
      destruct IH as [IHl IHr]. set (q := anc D l (S k) - 1) in *.
      pose proof (anc_ge2 n D Hn HnD l k Hl ltac:(lia)) as Hg.
      assert (Hq : par (anc D l k - 1) = q) by (apply (par_anc n D Hn HnD l k Hl); lia).
      pose proof (ext_anc n D Hn HnD l k Hl ltac:(lia)) as Hx.
      destruct (par_cases (anc D l k - 1)) as [Hc|Hc]; [lia| |]; rewrite Hq in Hc; rewrite Hc in Hx |- *; auto.
      rewrite Hx in IHr. auto. }
  apply (Hdn (D - d)); lia.
Qed.

End Verify.
