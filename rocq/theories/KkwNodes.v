(** The values in the trees of KkwSpec.v are those computed by tree.c. *)

From Coq Require Import List NArith Arith Bool Lia ZifyBool ZifyNat ZifyN.
From Verif Require Import Base Params Env Spec Tree Picnic3 BaseFacts ParamFacts UtilFacts
  TreeShape TreeSeed TreeReveal TreeOpen TreeMissing TreeMerkle TreeVerify TreeSpec TreeTop
  P3Bytes P3Tape P3Online P3Chal P3Round P3Seeds ZkbppSpec ZkbppProofs KkwSpec KkwTree.
Import ListNotations.

Section Nodes.
Variable E : env.
Variable P : paramset.
Variable sp : sparams.
Hypothesis HP3 : wfP3 P.
Hypothesis CF : conforms P sp.
Hypothesis HE : env_bytes_ok E.
Let sz := seedSizeBytes P.
Let dg := digestSizeBytes P.
Let SB_eq : octets (sp_S sp) = sz := eq_sym (cf_S P sp CF).
Let HB_eq : octets (sp_H sp) = dg := eq_sym (cf_H P sp CF).

Variable n : nat.
Hypothesis Hn : 2 <= n <= 1024.
Let D := Nat.log2_up n.
Let Hn2 : 2 <= n := proj1 Hn.
Let HnD : n <= 2 ^ D := n_pow n Hn.

Variable salt : bytes.
Hypothesis Hsalt : length salt = 32.

Let salt_eq : firstn (saltSizeBytes P) salt = salt.
Proof. rewrite (cf_salt P sp CF). apply firstn_all2. lia. Qed.
Let salt_le : saltSizeBytes P <= length salt.
Proof. rewrite (cf_salt P sp CF). lia. Qed.

Let ext0 : ext n D 0 = true.
Proof.
  rewrite <- (ext_anc n D Hn2 HnD 0 D) by lia. rewrite (anc_root n D Hn2 HnD) by lia. reflexivity.
Qed.

(** ** Seeds *)
Lemma child_seed_eq x rep i : 0 < i ->
  child_seed E sp x salt rep i = seed_half P i (seed_hash E P salt rep x (par i)).
Proof.
  intros Hi. unfold child_seed, seed_half, seed_hash, sub_bytes. rewrite SB_eq.
  rewrite (hash_eq E P sp CF), salt_eq, !le16_eq, parent_par by auto. cbn [prefix_bytes concat].
  rewrite app_nil_r. replace (Nat.even (i + 1)) with (Nat.odd i) by (rewrite Nat.add_1_r, Nat.even_succ; reflexivity).
  destruct (Nat.odd i); reflexivity.
Qed.

Lemma half_lt x k : 0 < x -> x + 1 < 2 ^ S (S k) -> par x + 1 < 2 ^ S k.
Proof. intros H0 H. rewrite pow_S in H. destruct (par_cases x H0); lia. Qed.

Lemma seed_node_eq root rep t : full_seeds E P n D salt rep root t ->
  forall k x, x + 1 < 2 ^ S k -> ext n D x = true ->
  seed_node E sp root salt rep k x = nd t x.
Proof.
  intros (Hs & Hh & H0 & Hc). induction k as [|k IH]; intros x Hx He.
  - cbn in Hx. replace x with 0 by lia. auto.
  - cbn [seed_node]. destruct (Nat.eqb_spec x 0) as [->|Hne]; auto.
    rewrite Hc by (auto; lia). rewrite <- (IH (par x)).
    + rewrite parent_par by lia. apply child_seed_eq. lia.
    + apply half_lt; auto. lia.
    + apply (ext_par n D Hn2 HnD); auto. lia.
Qed.

Lemma ext_pow x : ext n D x = true -> x + 1 < 2 ^ S D.
Proof. intros H. apply ext_lt in H. unfold nN in H. rewrite pow_S. pose proof (pow_pos D). lia. Qed.

Lemma seed_at_eq root rep x : length root = sz -> ext n D x = true ->
  seed_at E sp n root salt rep x = nd (sgen E P n root salt rep) x.
Proof.
  intros Hr He. destruct (sgen_ok E P HP3 HE n Hn root salt rep) as [_ Hf]; [fold sz; lia|auto|].
  rewrite firstn_all2 in Hf by (fold sz; lia). unfold seed_at. change (depth n) with D.
  apply (seed_node_eq root rep); auto. apply ext_pow. auto.
Qed.

Lemma seed_leaf_eq root rep l : length root = sz -> l < n ->
  seed_leaf E sp n root salt rep l = nd (sgen E P n root salt rep) (nF D + l).
Proof. intros Hr Hl. apply seed_at_eq; auto. apply ext_leaf; auto. Qed.

Lemma reveal_seeds_eq root rep hide : length root = sz -> Forall (fun l => l < n) hide ->
  reveal_seeds E sp n root salt rep hide = sopen P n (sgen E P n root salt rep) hide.
Proof.
  intros Hr Hh. unfold reveal_seeds, sopen. rewrite <- (reveal_eq n Hn hide Hh), flat_map_concat_map. f_equal.
  destruct (sgen_ok E P HP3 HE n Hn root salt rep) as [_ Hf]; [fold sz; lia|auto|]. destruct Hf as [Hs _].
  destruct (rvs_ok n Hn hide _ _ Hh Hs) as [_ (_ & Hin & _)].
  apply map_ext_in. intros r Hr'. apply Hin in Hr'. apply Rv_ext in Hr'; auto.
  rewrite seed_at_eq by auto. symmetry. apply firstn_all2. unfold nd.
  rewrite (sh_nl _ _ _ _ Hs); [fold sz; lia|]. apply ext_lt in Hr'. auto.
Qed.

Lemma recover_leaf_eq hide info rep l : Forall (fun l => l < n) hide -> hide <> [] ->
  length info = length (rvs n hide) * sz -> l < n -> ~ In l hide ->
  recover_leaf E sp n hide info salt rep l = nd (srec E P n hide info salt rep) (nF D + l).
Proof.
  intros Hh Hne Hli Hl Hnin.
  pose proof (createTree_ok n D ltac:(lia) eq_refl (D_small n Hn) sz) as H. apply ok_ex in H.
  destruct H as (t0 & He & Ht & _ & Hv).
  destruct (rvs_ok n Hn hide sz t0 Hh Ht) as [Hr Hr'].
  pose proof (rvs_le n Hn hide Hh) as Hle. pose proof (w3_sd P HP3) as Hsz. fold sz in Hsz.
  assert (Hi : exceeds_int (length info) = false).
  { apply small_int. rewrite Hli. assert (length (rvs n hide) * sz <= 1024 * 32) by (apply Nat.mul_le_mono; lia). lia. }
  destruct (reconstructSeeds_ok E P HE (sz_pos P HP3) n D ltac:(lia) eq_refl (D_small n Hn) salt rep salt_le hide Hh t0
              (rvs n hide) info Ht Hv Hne Hr Hr' Hli Hi) as (t' & He' & Hs' & Hlf & Hh' & Hj & Hc).
  assert (Hsr : srec E P n hide info salt rep = t') by (unfold srec; fold sz; rewrite He; cbn [bind]; rewrite He'; reflexivity).
  rewrite Hsr. unfold recover_leaf. rewrite <- (reveal_eq n Hn hide Hh), leaf_eq. change (depth n) with D. fold D.
  assert (Hgen : forall k x, x + 1 < 2 ^ S k -> hv t' x = true ->
    recover_node E sp (rvs n hide) info salt rep k x = nd t' x).
  { assert (Hin : forall x, In x (rvs n hide) -> sub_bytes info (position x (rvs n hide) * sz) sz = nd t' x).
    { intros x Hx. destruct (position_nth _ _ Hx) as [Hp1 Hp2]. rewrite <- Hp2 at 2. rewrite Hj by auto. reflexivity. }
    induction k as [|k IH]; intros x Hx Hhx; cbn [recover_node]; rewrite SB_eq;
      destruct (member x (rvs n hide)) eqn:Em; try (apply Hin; apply member_In; auto); fold sz.
    - exfalso. cbn in Hx. replace x with 0 in * by lia. rewrite Hh' in Hhx. rewrite member_contains in Em. rewrite Em in Hhx.
      cbn in Hhx. rewrite andb_false_r in Hhx. discriminate.
    - rewrite Hh' in Hhx. rewrite member_contains in Em. rewrite Em in Hhx. cbn [orb] in Hhx.
      rewrite (Hc x); [|rewrite Hh', Em; cbn [orb]; auto|apply contains_false; auto].
      rewrite <- (IH (par x)); [|apply half_lt; auto; lia|lia].
      rewrite parent_par by lia. apply child_seed_eq. lia. }
  apply Hgen; [|apply Hlf; auto]. apply ext_pow. apply ext_leaf; auto.
Qed.

(** ** Merkle trees *)
Let mh_eq p l r : mhash E P salt p l r = Hi E sp 3 (l ++ r ++ salt ++ le16 p).
Proof.
  unfold mhash. rewrite (hash_eq E P sp CF), salt_eq. unfold Hi. rewrite HB_eq. cbn [prefix_bytes concat].
  rewrite app_nil_r, le16_eq. reflexivity.
Qed.

Lemma merkle_hash_eq p (f : nat -> bytes) (t : tree) :
  f (2 * p + 1) = nd t (2 * p + 1) ->
  (ext n D (2 * p + 2) = true -> f (2 * p + 2) = nd t (2 * p + 2)) ->
  (2 * p + 2 < nN n D -> ext n D (2 * p + 2) = false -> nd t (2 * p + 2) = zeros dg) ->
  merkle_hash E sp n salt p f = mhash E P salt p (nd t (2 * p + 1)) (mright n D t p).
Proof.
  intros H1 H2 H3. rewrite mh_eq. unfold merkle_hash. rewrite H1. f_equal. f_equal. f_equal.
  rewrite (in_tree_eq n Hn). unfold mright, missing_right. rewrite (leaf_n n). fold D. rewrite HB_eq.
  destruct (ext n D (2 * p + 2)) eqn:Ee.
  - apply ext_lt in Ee as Hl. replace (2 * p + 2 <? nN n D) with true by lia. auto.
  - destruct (Nat.ltb_spec (2 * p + 2) (nN n D)); [|reflexivity]. rewrite H3 by auto. reflexivity.
Qed.

Lemma height_kid k x c : S k <= D -> 2 ^ (D - S k) <= x + 1 < 2 * 2 ^ (D - S k) ->
  c = 2 * x + 1 \/ c = 2 * x + 2 -> 2 ^ (D - k) <= c + 1 < 2 * 2 ^ (D - k).
Proof.
  intros Hk Hx Hc. replace (D - k) with (S (D - S k)) by lia. rewrite pow_S. lia.
Qed.

Lemma height_nonleaf k x : S k <= D -> 2 ^ (D - S k) <= x + 1 < 2 * 2 ^ (D - S k) -> x + 1 < 2 ^ D.
Proof.
  intros Hk Hx. assert (2 * 2 ^ (D - S k) <= 2 ^ D); [|lia].
  rewrite <- pow_S. apply Nat.pow_le_mono_r; lia.
Qed.

Lemma leaf_of_height x : ext n D x = true -> 2 ^ (D - 0) <= x + 1 -> exists l, l < n /\ x = nF D + l.
Proof.
  intros He Hx. rewrite Nat.sub_0_r in Hx. apply ext_lt in He. unfold nN in He. exists (x - nF D). unfold nF. lia.
Qed.

Lemma merkle_node_eq leaves L t : full_merkle E P n D salt L t ->
  (forall l, l < n -> firstn dg (nth l L []) = leaves l) ->
  forall k x, k <= D -> 2 ^ (D - k) <= x + 1 < 2 * 2 ^ (D - k) -> ext n D x = true ->
  merkle_node E sp n salt leaves k x = nd t x.
Proof.
  intros (Hs & Hh & Hl & Hz & Hc) HL. induction k as [|k IH]; intros x Hk Hx He; cbn [merkle_node].
  - destruct (leaf_of_height x He ltac:(lia)) as (l & Hll & ->). rewrite Hl by auto. fold dg. rewrite HL by auto.
    f_equal. rewrite leaf_eq. fold D. lia.
  - pose proof (height_nonleaf k x Hk Hx) as Hnl. rewrite Hc by auto. apply merkle_hash_eq.
    + apply IH; [lia|eapply height_kid; eauto|]. rewrite (ext_nonleaf_left n D Hn2 HnD); auto.
    + intros He2. apply IH; auto; [lia|eapply height_kid; eauto].
    + intros H1 H2. apply Hz; auto.
Qed.

Lemma ext_height x : ext n D x = true -> height n x <= D /\ 2 ^ (D - height n x) <= x + 1 < 2 * 2 ^ (D - height n x).
Proof.
  intros He. pose proof (ext_pow x He) as Hp. unfold height. change (depth n) with D.
  assert (Hl : Nat.log2 (x + 1) <= D).
  { apply Nat.lt_succ_r. apply Nat.log2_lt_pow2; auto. lia. }
  split; [lia|]. replace (D - (D - Nat.log2 (x + 1))) with (Nat.log2 (x + 1)) by lia.
  pose proof (Nat.log2_spec (x + 1) ltac:(lia)) as H. rewrite pow_S in H. auto.
Qed.

Lemma merkle_root_eq leaves L t : full_merkle E P n D salt L t ->
  (forall l, l < n -> firstn dg (nth l L []) = leaves l) ->
  merkle_root E sp n salt leaves = nd t 0.
Proof.
  intros Hf HL. unfold merkle_root. change (depth n) with D. apply (merkle_node_eq leaves L); auto.
  rewrite Nat.sub_diag. cbn. lia.
Qed.

Lemma open_merkle_eq leaves L t miss : full_merkle E P n D salt L t ->
  (forall l, l < n -> firstn dg (nth l L []) = leaves l) -> Forall (fun l => l < n) miss ->
  open_merkle E sp n salt leaves miss = concat (map (nd t) (mrvs n miss)).
Proof.
  intros Hf HL Hm. unfold open_merkle. rewrite <- (open_eq n Hn miss Hm), flat_map_concat_map. f_equal.
  apply map_ext_in. intros r Hr. pose proof Hf as [Hs _].
  destruct (mrvs_ok n Hn miss _ _ Hm Hs) as [_ (m & _ & _ & Hin & _)]. apply Hin in Hr. destruct Hr as (_ & He & _).
  destruct (ext_height r He). apply (merkle_node_eq leaves L); auto.
Qed.

(** The root computed in verification. *)
Lemma remerkle_eq leaves miss info (LD : list (option bytes)) :
  Forall (fun l => l < n) miss -> length miss < n -> n <= 1024 ->
  length info = length (mrvs n miss) * dg ->
  length LD = n ->
  (forall l, l < n -> In l miss -> nth l LD None = None) ->
  (forall l, l < n -> ~ In l miss -> nth l LD None = Some (leaves l) /\ length (leaves l) = dg) ->
  exists s, (t0 <- createTree n dg ;;
             r <- addMerkleNodes t0 miss info ;;
             match r with None => Ok None | Some t1 => verifyMerkleTree E P t1 LD salt end) = Ok (Some s) /\
    shape n D dg s /\
    remerkle_node E sp n salt (open_nodes n miss) info leaves D 0 = nd s 0.
Proof.
  intros Hm Hml Hn1 Hli HLD H1 H2.
  pose proof (createTree_ok n D ltac:(lia) eq_refl (D_small n Hn) dg) as H. apply ok_ex in H.
  destruct H as (t0 & He & Ht & Hz & Hv). rewrite He. cbn [bind].
  destruct (mrvs_ok n Hn miss dg t0 Hm Ht) as [Hr (m & Hr')]. change (Nat.log2_up n) with D in Hr'.
  pose proof (w3_dg P HP3) as Hdg. fold dg in Hdg. pose proof Hr' as (Hms & Hnd & Hin & Hle).
  assert (Hi : exceeds_int (length info) = false).
  { apply small_int. rewrite Hli. assert (length (mrvs n miss) * dg <= 1024 * 64) by (apply Nat.mul_le_mono; lia). lia. }
  destruct (addMerkleNodes_ok P n D Hn2 HnD miss t0 m (mrvs n miss) info Ht Hv Hml ltac:(fold dg; lia) Hr Hr')
    as (o & -> & Ho). cbn [bind].
  destruct o as [t1|]; [|exfalso; destruct Ho as [Ho|Ho]; [congruence|auto]].
  destruct Ho as (_ & _ & Hs1 & Hh1 & Hno1 & Hj1). fold dg in Hs1, Hj1.
  assert (Hnone : forall l, In l miss -> nth l LD None = None).
  { intros l Hl. apply H1; auto. rewrite Forall_forall in Hm. auto. }
  assert (Hlen : forall l (d : bytes), nth l LD None = Some d -> dg <= length d).
  { intros l d Hd. destruct (in_dec Nat.eq_dec l miss) as [Hl|Hl]; [rewrite Hnone in Hd by auto; discriminate|].
    destruct (Nat.lt_ge_cases l n) as [Hln|Hln].
    - destruct (H2 l Hln Hl) as [H3 H4]. rewrite H3 in Hd. injection Hd as <-. lia.
    - rewrite nth_overflow in Hd by lia. discriminate. }
  assert (Hex : forall x, hv t1 x = true -> ext n D x = true).
  { intros x Hx. rewrite Hh1 in Hx. apply contains_In in Hx. apply Hin in Hx. apply Hx. }
  assert (Hg : forall l, l < n -> ~ In l miss -> given LD l = true).
  { intros l Hl Hnl. unfold given. destruct (H2 l Hl Hnl) as [-> _]. reflexivity. }
  assert (Hgm : forall l, given LD l = true -> ~ In l miss).
  { intros l Hgl Hl. unfold given in Hgl. rewrite Hnone in Hgl by auto. discriminate. }
  pose proof (verifyMerkleTree_ok E P HE n D Hn2 HnD salt LD t1 salt_le Hs1 Hex HLD Hlen) as Hvm.
  apply ok_ex in Hvm. destruct Hvm as (o & -> & Hvm).
  pose proof Hms as (Mo & Mlf & Min).
  destruct o as [s|].
  2:{ exfalso. destruct Hvm as [(l & Hl & Hgl & Hhl)|(s & Hck & H0)].
      - rewrite Hh1 in Hhl. apply contains_In in Hhl. apply Hin in Hhl. destruct Hhl as (_ & _ & Hml' & _).
        rewrite Mlf in Hml' by auto. apply contains_In in Hml'. apply (Hgm l); auto.
      - rewrite (known_up E P n D Hn2 HnD miss m (mrvs n miss) salt LD t1 s Hr' Hh1 Hg Hck 0) in H0; [discriminate| |auto].
        apply ext0. }
  destruct Hvm as [Hck _]. exists s. split; [reflexivity|]. pose proof Hck as (Cs & Cg & Ch & Cl & Ct & Cz & Cc).
  split; [auto|]. rewrite <- (open_eq n Hn miss Hm).
  assert (Hnf : forall x, x < nN n D -> ext n D x = false -> nd s x = zeros dg).
  { intros x Hx Hxe.
    assert (Hnin : ~ In x (mrvs n miss)).
    { intros Hi'. apply Hin in Hi'. destruct Hi' as (_ & Hi' & _). congruence. }
    rewrite Cz.
    - rewrite Hno1 by auto. apply Hz; auto.
    - rewrite Ch. unfold known. rewrite Hh1. apply contains_false in Hnin. rewrite Hnin. cbn [orb].
      replace (given_node n D LD x) with false.
      2:{ symmetry. unfold given_node. destruct (Nat.leb_spec (nF D) x); [|reflexivity].
          pose proof (ext_leaf n D Hn2 HnD (x - nF D) ltac:(unfold nN, nF in *; lia)) as Hx'.
          replace (nF D + (x - nF D)) with x in Hx' by lia. congruence. }
      cbn [orb]. destruct (ext n D (2 * x + 1)) eqn:Ek; [|reflexivity].
      apply (ext_child_nonleaf n D Hn2 HnD) in Ek. destruct Ek. congruence. }
  assert (Hrv : forall x, In x (mrvs n miss) -> sub_bytes info (position x (mrvs n miss) * dg) dg = nd s x).
  { intros x Hx. destruct (position_nth _ _ Hx) as [Hp1 Hp2]. rewrite Ct by (rewrite Hh1; apply contains_In; auto).
    rewrite <- Hp2 at 2. rewrite Hj1 by auto. reflexivity. }
  assert (Hgen : forall k x, k <= D -> 2 ^ (D - k) <= x + 1 < 2 * 2 ^ (D - k) -> ext n D x = true ->
    m x = false \/ In x (mrvs n miss) ->
    remerkle_node E sp n salt (mrvs n miss) info leaves k x = nd s x).
  { induction k as [|k IH]; intros x Hk Hx Hxe Hmx; cbn [remerkle_node]; rewrite HB_eq;
      destruct (member x (mrvs n miss)) eqn:Em; try (apply Hrv; apply member_In; auto); fold dg; apply member_false in Em;
      (destruct Hmx as [Hmx|Hmx]; [|contradiction]).
    - destruct (leaf_of_height x Hxe ltac:(lia)) as (l & Hl & ->). rewrite Mlf in Hmx by auto. apply contains_false in Hmx.
      destruct (H2 l Hl Hmx) as [H3 H4]. rewrite (Cl l _ Hl H3). fold dg. rewrite firstn_all2 by lia.
      f_equal. rewrite leaf_eq. fold D. lia.
    - pose proof (height_nonleaf k x Hk Hx) as Hnl.
      assert (Hkid : forall c, c = 2 * x + 1 \/ c = 2 * x + 2 -> ext n D c = true ->
        remerkle_node E sp n salt (mrvs n miss) info leaves k c = nd s c).
      { intros c Hc Hce. apply IH; auto; [lia|eapply height_kid; eauto|].
        destruct (m c) eqn:Emc; [|auto]. right. apply Hin. split; [lia|]. split; [auto|]. split; [auto|].
        replace (par c) with x; auto. destruct Hc as [->| ->]; [rewrite par_left|rewrite par_right]; auto. }
      rewrite (Cc x).
      + apply merkle_hash_eq; auto. apply Hkid; auto. rewrite (ext_nonleaf_left n D Hn2 HnD); auto.
      + apply (known_up E P n D Hn2 HnD miss m (mrvs n miss) salt LD t1 s Hr' Hh1 Hg Hck); auto.
      + unfold known. rewrite Hh1. apply contains_false in Em. rewrite Em. unfold given_node.
        replace (nF D <=? x) with false by (unfold nF; lia). reflexivity. }
  apply Hgen; auto.
  rewrite Nat.sub_diag. cbn. lia.
Qed.
End Nodes.
