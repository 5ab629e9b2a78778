(** The properties of seed trees and Merkle trees, proved from the lemmas on the functions of tree.c. *)

From Coq Require Import List NArith Arith Bool Lia ZifyBool ZifyNat ZifyN.
From Verif Require Import Base Params Env Spec Tree BaseFacts UtilFacts ApiFacts SigSpec TreeSpec TreeShape TreeSeed
  TreeReveal TreeOpen TreeMissing TreeMerkle TreeVerify.
Import ListNotations.

Lemma below_div x y : below x y -> exists k, (y + 1) / 2 ^ k = x + 1.
Proof.
  induction 1 as [|y H (k & IH)|y H (k & IH)].
  - exists 0. rewrite Nat.pow_0_r, Nat.div_1_r. reflexivity.
  - exists (S k). rewrite pow_S, <- Nat.div_div by (pose proof (pow_pos k); lia).
    replace (2 * y + 1 + 1) with (2 * (y + 1)) by lia. rewrite div2_mul. auto.
  - exists (S k). rewrite pow_S, <- Nat.div_div by (pose proof (pow_pos k); lia).
    replace (2 * y + 2 + 1) with (2 * (y + 1) + 1) by lia. rewrite div2_succ. auto.
Qed.

Lemma leaf_node_eq n D sz t l : shape n D sz t -> leaf_node t l = nF D + l.
Proof.
  intros Ht. unfold leaf_node. rewrite (sh_N _ _ _ _ Ht), (sh_n _ _ _ _ Ht). unfold nN, nF. pose proof (pow_pos D). lia.
Qed.

Lemma getLeaf_eq n D sz t l : shape n D sz t -> l < n -> getLeaf t l = Ok (nd t (nF D + l)).
Proof.
  intros Ht Hl. unfold getLeaf. rewrite (sh_n _ _ _ _ Ht). replace (l <? n) with true by lia. cbn [c_assert bind].
  rewrite (firstLeaf_eq n D sz) by auto. apply (rd_node n D sz); auto. unfold nN, nF. pose proof (pow_pos D). lia.
Qed.

Lemma size_int n sz k : (N.of_nat (n * sz) <= INT_MAX)%N -> k <= n -> exceeds_int (k * sz) = false.
Proof.
  intros H Hk. unfold exceeds_int. assert (k * sz <= n * sz) by (apply Nat.mul_le_mono_r; auto). lia.
Qed.

Lemma C19_pf E P n root salt rep hide :
  env_bytes_ok E -> 0 < seedSizeBytes P <= 32 -> tree_size_ok n (seedSizeBytes P) ->
  seedSizeBytes P <= length root -> saltSizeBytes P <= length salt ->
  Forall (fun l => l < n) hide -> hide <> [] ->
  exists T t0 t' rv out,
    generateSeeds E P n root salt rep = Ok T /\
    getRevealedNodes T hide = Ok rv /\
    (forall r l, In r rv -> In l hide -> ~ below r (leaf_node T l)) /\
    revealSeedsSize P n hide = Ok (length out) /\
    (forall size, length out <= size -> (N.of_nat size <= INT_MAX)%N ->
       revealSeeds P T hide size = Ok (Some out)) /\
    createTree n (seedSizeBytes P) = Ok t0 /\
    reconstructSeeds E P t0 hide out salt rep = Ok (Some t') /\
    (forall l, l < n -> ~ In l hide -> have_leaf t' l = true /\ getLeaf t' l = getLeaf T l) /\
    (forall l, In l hide -> have_leaf t' l = false).
Proof.
  intros HE Hsz (Hn & Hbig & Hint) Hroot Hsalt Hhide Hne.
  remember (Nat.log2_up n) as D eqn:HD.
  pose proof (D_bound n D Hn HD Hbig) as HnD.
  pose proof (generateSeeds_ok E P HE Hsz n D Hn HD Hbig salt rep Hsalt root Hroot) as HT.
  apply ok_ex in HT. destruct HT as (T & HTe & HT). pose proof HT as (Ts & _).
  pose proof (createTree_ok n D Hn HD Hbig (seedSizeBytes P)) as Ht0. apply ok_ex in Ht0.
  destruct Ht0 as (t0 & Ht0e & Ht0 & _ & Hh0).
  pose proof (revealSeedsSize_ok P n D Hn HD Hbig hide Hhide) as Hsize. apply ok_ex in Hsize.
  destruct Hsize as (k & Hk & Hsz2). destruct (Hsz2 _ _ Ts) as (rv & Hrv & Hr & ->).
  assert (Hrv0 : getRevealedNodes t0 hide = Ok rv).
  { rewrite <- Hrv. eapply getRevealedNodes_shape; eauto. }
  pose proof Hr as (Hnd & Hin & _ & Hlen).
  pose proof (size_int n (seedSizeBytes P) (length rv) Hint Hlen) as Hie.
  destruct (reconstruct_full E P HE Hsz n D Hn HD Hbig salt rep Hsalt hide Hhide (firstn (seedSizeBytes P) root) T t0 rv)
    as (t' & Hre & Hs' & Hl & Hv); auto.
  set (out := concat (map (fun r => firstn (seedSizeBytes P) (nd T r)) rv)) in *.
  assert (Hout : length out = length rv * seedSizeBytes P).
  { unfold out. rewrite (length_concat_const (seedSizeBytes P)); [rewrite map_length; auto|].
    intros x Hx. apply in_map_iff in Hx. destruct Hx as (r & <- & Hr'). rewrite firstn_length. unfold nd.
    rewrite (sh_nl _ _ _ _ Ts); [lia|]. apply Hin in Hr'. apply (Rv_ext n D Hn HnD hide Hhide) in Hr'. apply (ext_lt n D r Hr'). }
  exists T, t0, t', rv, out. split; [auto|]. split; [auto|]. split; [|split; [|split; [|split; [|split; [|split]]]]]; auto.
  - intros r l Hrr Hll Hb. rewrite (leaf_node_eq n D (seedSizeBytes P)) in Hb by auto.
    apply Hin in Hrr. apply (Rv_not_hidden n D Hn HnD hide Hhide r Hrr).
    apply below_div in Hb. destruct Hb as (j & Hj).
    assert (Hln : l < n) by (rewrite Forall_forall in Hhide; auto).
    pose proof (pow_pos D) as HM.
    replace (nF D + l + 1) with (2 ^ D + l) in Hj by (unfold nF; lia).
    assert (HjD : j <= D).
    { destruct (Nat.le_gt_cases j D); auto. exfalso.
      assert (2 ^ S D <= 2 ^ j) by (apply Nat.pow_le_mono_r; lia). rewrite pow_S in *.
      rewrite Nat.div_small in Hj by lia. lia. }
    exists j. split; [auto|]. apply in_map_iff. exists l. split; [exact Hj|auto].
  - rewrite Hout. auto.
  - intros size Hs Hs2.
    apply (revealSeeds_ok P Hsz n D Hn HD Hbig salt Hsalt hide Hhide (seedSizeBytes P) T rv size); auto.
    + unfold exceeds_int. lia.
    + lia.
  - intros l Hl1 Hl2. split.
    + unfold have_leaf. rewrite (leaf_node_eq n D (seedSizeBytes P)) by auto. apply Hl; auto.
    + rewrite !(getLeaf_eq n D (seedSizeBytes P)) by auto. f_equal. auto.
  - intros l Hl1. assert (Hln : l < n) by (rewrite Forall_forall in Hhide; auto).
    unfold have_leaf. rewrite (leaf_node_eq n D (seedSizeBytes P)) by auto.
    destruct (nth (nF D + l) (t_haveNode t') false) eqn:Eh; auto. exfalso. apply Hl in Eh; auto.
Qed.

(** ** Values of the leaves *)
Lemma seed_of_nd E P n D salt rep root t : env_bytes_ok E -> 2 <= n -> n <= 2 ^ D ->
  full_seeds E P n D salt rep (firstn (seedSizeBytes P) root) t ->
  forall path, ext n D (fst (seed_of E P root salt rep path)) = true ->
    nd t (fst (seed_of E P root salt rep path)) = snd (seed_of E P root salt rep path).
Proof.
  intros HE Hn HnD (Ts & Th & Tr & Tc). induction path as [|b path IH]; [intros _; exact Tr|].
  cbn [seed_of]. destruct (seed_of E P root salt rep path) as [p s]. cbn [fst snd] in *.
  set (h := hash _ _ _ _ _). assert (Hh : h = seed_hash E P salt rep s p) by reflexivity.
  assert (Hl : length h = 2 * seedSizeBytes P) by (unfold h, hash; apply HE).
  destruct b; cbn [fst snd]; intros Hx.
  - assert (Hp : ext n D p = true) by (rewrite <- (par_right p); apply ext_par; auto; lia).
    rewrite Tc by (auto; lia). rewrite par_right, IH by auto. rewrite <- Hh. unfold seed_half.
    replace (Nat.even (2 * p + 2 + 1)) with false.
    + rewrite firstn_all2; auto. rewrite skipn_length. lia.
    + replace (2 * p + 2 + 1) with (S (2 * (p + 1))) by lia. rewrite Nat.even_succ, Nat.odd_mul. reflexivity.
  - assert (Hp : ext n D p = true) by (rewrite <- (par_left p); apply ext_par; auto; lia).
    rewrite Tc by (auto; lia). rewrite par_left, IH by auto. rewrite <- Hh. unfold seed_half.
    replace (Nat.even (2 * p + 1 + 1)) with true; auto.
    replace (2 * p + 1 + 1) with (2 * (p + 1)) by lia. rewrite Nat.even_mul. reflexivity.
Qed.

Lemma seed_of_path E P root salt rep x : exists path, fst (seed_of E P root salt rep path) = x.
Proof.
  induction x as [x IH] using (well_founded_induction lt_wf).
  destruct (Nat.eq_dec x 0) as [->|Hx]; [exists []; reflexivity|].
  destruct (IH (par x)) as (path & Hp); [apply par_lt; lia|].
  destruct (par_cases x ltac:(lia)) as [H|H].
  - exists (false :: path). cbn [seed_of]. destruct (seed_of E P root salt rep path) as [p s]. cbn [fst] in *. lia.
  - exists (true :: path). cbn [seed_of]. destruct (seed_of E P root salt rep path) as [p s]. cbn [fst] in *. lia.
Qed.

Lemma seeds_derived_pf E P n root salt rep :
  env_bytes_ok E -> 0 < seedSizeBytes P <= 32 -> 2 <= n -> Nat.log2_up n < 30 ->
  seedSizeBytes P <= length root -> saltSizeBytes P <= length salt ->
  exists T, generateSeeds E P n root salt rep = Ok T /\
    forall l, l < n -> exists path, fst (seed_of E P root salt rep path) = leaf_node T l /\
      getLeaf T l = Ok (snd (seed_of E P root salt rep path)).
Proof.
  intros HE Hsz Hn Hbig Hroot Hsalt. remember (Nat.log2_up n) as D eqn:HD.
  pose proof (D_bound n D Hn HD Hbig) as HnD.
  pose proof (generateSeeds_ok E P HE Hsz n D Hn HD Hbig salt rep Hsalt root Hroot) as HT.
  apply ok_ex in HT. destruct HT as (T & HTe & HT). pose proof HT as (Ts & _).
  exists T. split; [auto|]. intros l Hl.
  destruct (seed_of_path E P root salt rep (leaf_node T l)) as (path & Hp). exists path. split; [auto|].
  rewrite (getLeaf_eq n D (seedSizeBytes P)) by auto. f_equal.
  rewrite (leaf_node_eq n D (seedSizeBytes P)) in Hp by auto. rewrite <- Hp.
  apply (seed_of_nd E P n D salt rep); auto. rewrite Hp. apply ext_leaf; auto.
Qed.

(** ** Merkle trees *)
Lemma given_present n miss (L : list bytes) l : l < n ->
  nth l (present_leaves n miss L) None = if contains miss l then None else Some (nth l L []).
Proof.
  intros Hl. unfold present_leaves.
  change (map _ (seq 0 n)) with (map (fun i => if contains miss i then None else Some (nth i L ([] : bytes))) (seq 0 n)).
  rewrite (nth_indep _ None (if contains miss 0 then None else Some (nth 0 L ([] : bytes)))) by (rewrite map_length, seq_length; auto).
  rewrite (map_nth (fun i => if contains miss i then None else Some (nth i L ([] : bytes))) (seq 0 n) 0 l).
  rewrite seq_nth by auto. reflexivity.
Qed.

Lemma exists_not_missing n (miss : list nat) : length miss < n -> exists l, l < n /\ ~ In l miss.
Proof.
  intros Hl. destruct (existsb (fun l => negb (contains miss l)) (seq 0 n)) eqn:Ex.
  - apply existsb_exists in Ex. destruct Ex as (l & Hin & Hc). apply in_seq in Hin. exists l. split; [lia|].
    apply contains_false. destruct (contains miss l); auto.
  - exfalso. assert (Hincl : incl (seq 0 n) miss).
    { intros l Hin. apply contains_In. destruct (contains miss l) eqn:Ec; auto.
      assert (existsb (fun l => negb (contains miss l)) (seq 0 n) = true); [|congruence].
      apply existsb_exists. exists l. rewrite Ec. auto. }
    apply NoDup_incl_length in Hincl; [|apply seq_NoDup]. rewrite seq_length in Hincl. lia.
Qed.

Section MerkleTop.
Variables (E : env) (P : paramset) (n : nat).
Hypothesis HE : env_bytes_ok E.
Hypothesis Hsz : 0 < digestSizeBytes P.
Hypothesis Hsize : tree_size_ok n (digestSizeBytes P).
Let sz := digestSizeBytes P.

Lemma C20_pf (L : list bytes) salt miss :
  saltSizeBytes P <= length salt -> length L = n -> (forall x, In x L -> sz <= length x) ->
  Forall (fun l => l < n) miss -> length miss < n ->
  exists t0 T out t1 t',
    createTree n sz = Ok t0 /\
    buildMerkleTree E P t0 (map (@Some bytes) L) salt = Ok T /\
    openMerkleTree T miss = Ok out /\
    openMerkleTreeSize P n miss = Ok (length out) /\
    addMerkleNodes t0 miss out = Ok (Some t1) /\
    verifyMerkleTree E P t1 (present_leaves n miss L) salt = Ok (Some t') /\
    root_value t' = root_value T.
Proof.
  destruct Hsize as (Hn & Hbig & Hint). intros Hsalt HL HLl Hmiss Hml.
  remember (Nat.log2_up n) as D eqn:HD. pose proof (D_bound n D Hn HD Hbig) as HnD.
  pose proof (createTree_ok n D Hn HD Hbig sz) as Ht0. apply ok_ex in Ht0.
  destruct Ht0 as (t0 & Ht0e & Ht0 & Hz0 & Hh0).
  pose proof (buildMerkleTree_ok E P HE n D Hn HnD salt Hsalt t0 L Ht0 Hh0 Hz0 HL HLl) as HT.
  apply ok_ex in HT. destruct HT as (T & HTe & HT). pose proof HT as (Ts & Th & Tl & Tz & Tc).
  destruct (mrevealed_ok n D Hn HnD miss Hmiss sz t0 Ht0) as (m & rv & Hrv & Hr).
  assert (HrvT : getRevealedMerkleNodes T miss = Ok rv).
  { rewrite <- Hrv. eapply getRevealedMerkleNodes_shape; eauto. }
  pose proof (openMerkleTree_ok P n D miss T m rv Ts HrvT Hr) as Ho.
  set (out := concat (map (nd T) rv)) in *.
  pose proof (fun r => mrevealed_lt n D miss m rv r Hr) as Hlt.
  assert (Hlm : forall x, In x (map (nd T) rv) -> length x = sz).
  { intros x Hx. apply in_map_iff in Hx. destruct Hx as (r & <- & Hr'). unfold nd. apply (sh_nl _ _ _ _ Ts). auto. }
  assert (Hout : length out = length rv * sz).
  { unfold out. rewrite (length_concat_const sz) by auto. rewrite map_length. auto. }
  assert (Hrl : length rv <= n) by apply Hr.
  destruct (addMerkleNodes_ok P n D Hn HnD miss t0 m rv out Ht0 Hh0 Hml Hsz Hrv Hr) as ([t1|] & Hae & Ha).
  2:{ exfalso. destruct Ha as [Ha|Ha]; [|auto]. rewrite Hout, (size_int n sz) in Ha by auto. discriminate. }
  destruct Ha as (_ & _ & Hs1 & Hh1 & Hn1 & Hj1).
  set (LD := present_leaves n miss L).
  assert (HLD : length LD = n) by (unfold LD, present_leaves; rewrite map_length, seq_length; auto).
  assert (HLDd : forall l (d : bytes), nth l LD None = Some d -> sz <= length d).
  { intros l d Hd. destruct (Nat.lt_ge_cases l n) as [Hl|Hl].
    - unfold LD in Hd. rewrite given_present in Hd by auto. destruct (contains miss l); [discriminate|].
      injection Hd as <-. apply HLl. apply nth_In. lia.
    - rewrite nth_overflow in Hd by lia. discriminate. }
  pose proof (verifyMerkleTree_ok E P HE n D Hn HnD salt LD t1 Hsalt Hs1) as Hver.
  assert (Hext : forall x, hv t1 x = true -> ext n D x = true).
  { intros x. rewrite Hh1, contains_In. intros Hx. apply Hr in Hx. apply Hx. }
  specialize (Hver Hext HLD HLDd). apply ok_ex in Hver. destruct Hver as (o & Hve & Hv).
  assert (Hm1 : forall l, l < n -> In l miss -> nth l LD None = None).
  { intros l Hl Hi. unfold LD. rewrite given_present by auto. apply contains_In in Hi. rewrite Hi. reflexivity. }
  assert (Hm2 : forall l, l < n -> ~ In l miss -> nth l LD None = Some (nth l L [])).
  { intros l Hl Hi. unfold LD. rewrite given_present by auto. apply contains_false in Hi. rewrite Hi. reflexivity. }
  assert (Hval : forall r, In r rv -> nd t1 r = nd T r).
  { intros r Hr'. destruct (In_nth _ _ 0 Hr') as (j & Hj & <-). rewrite Hj1 by auto.
    unfold out. rewrite (blk_concat sz _ j []) by (auto; rewrite map_length; auto).
    rewrite (nth_indep _ [] (nd T 0)) by (rewrite map_length; auto). apply map_nth. }
  assert (Hzz : forall x, x < nN n D -> ext n D x = false -> nd t1 x = zeros sz).
  { intros x Hx Ex. rewrite Hn1; [apply Hz0; auto|]. intros Hi. apply Hr in Hi. destruct Hi as (_ & Hi & _). congruence. }
  assert (Hk : forall s, checked E P n D salt LD t1 s -> hv s 0 = true /\ nd s 0 = nd T 0).
  { intros s Hs. apply (merkle_complete E P n D Hn HnD miss m rv salt L LD T t1 s Hr HT Hzz Hh1 Hval Hm1 Hm2 Hs).
    - unfold ext, nN. rewrite exh_root by auto. pose proof (pow_pos D). lia.
    - apply Hr. }
  destruct o as [t'|].
  - exists t0, T, out, t1, t'. repeat (split; [solve [auto]|]). split; [|split; [auto|split; [auto|]]].
    + unfold openMerkleTreeSize. fold sz. rewrite Ht0e. cbn [bind]. rewrite Hrv. cbn [bind]. rewrite Hout. reflexivity.
    + apply (Hk t'). apply Hv.
  - exfalso. destruct Hv as [(l & Hl & Hg & Hh)|(s & Hs & Hf)].
    + rewrite Hh1 in Hh. apply contains_In in Hh. apply Hr in Hh. destruct Hh as (_ & _ & Hh & _).
      destruct Hr as ((_ & Ml & _) & _). rewrite Ml in Hh by auto. apply contains_In in Hh.
      unfold given in Hg. rewrite Hm1 in Hg by auto. discriminate.
    + destruct (Hk s Hs). congruence.
Qed.

(** What an accepting verification establishes. *)
Lemma verified_path D t0 miss input t1 (LD : list (option bytes)) salt t' :
  D = Nat.log2_up n -> saltSizeBytes P <= length salt -> createTree n sz = Ok t0 ->
  Forall (fun l => l < n) miss -> length miss < n -> length LD = n ->
  (forall l (d : bytes), nth l LD None = Some d -> sz <= length d) ->
  addMerkleNodes t0 miss input = Ok (Some t1) ->
  verifyMerkleTree E P t1 LD salt = Ok (Some t') ->
  shape n D sz t' /\ (forall l, l < n -> ~ In l miss -> path_hashed E P n D salt t' l) /\
  (forall l (d : bytes), l < n -> nth l LD None = Some d -> nd t' (nF D + l) = firstn sz d).
Proof.
  destruct Hsize as (Hn & Hbig & Hint). intros HD Hsalt Ht0e Hmiss Hml HLD HLDd Ha Hv.
  rewrite <- HD in Hbig. pose proof (D_bound n D Hn HD Hbig) as HnD.
  pose proof (createTree_ok n D Hn HD Hbig sz) as Ht0. rewrite Ht0e in Ht0. cbn [ok] in Ht0.
  destruct Ht0 as (Ht0 & Hz0 & Hh0).
  destruct (mrevealed_ok n D Hn HnD miss Hmiss sz t0 Ht0) as (m & rv & Hrv & Hr).
  destruct (addMerkleNodes_ok P n D Hn HnD miss t0 m rv input Ht0 Hh0 Hml Hsz Hrv Hr) as (o & Hae & Hao).
  rewrite Ha in Hae. injection Hae as <-. destruct Hao as (_ & _ & Hs1 & Hh1 & Hn1 & Hj1).
  assert (Hext : forall x, hv t1 x = true -> ext n D x = true).
  { intros x. rewrite Hh1, contains_In. intros Hx. apply Hr in Hx. apply Hx. }
  pose proof (verifyMerkleTree_ok E P HE n D Hn HnD salt LD t1 Hsalt Hs1 Hext HLD HLDd) as Hver.
  rewrite Hv in Hver. cbn [ok] in Hver. destruct Hver as [Hc H0].
  split; [apply Hc|]. split.
  - intros l Hl Hnl. eapply checked_path; eauto.
  - apply Hc.
Qed.

Lemma merkle_string_eq D t salt p : shape n D sz t ->
  merkle_string P t salt p = nd t (2 * p + 1) ++ mright n D t p ++ firstn (saltSizeBytes P) salt ++ intLE p.
Proof. intros Ht. unfold merkle_string, mright, node_value, nd. rewrite (sh_N _ _ _ _ Ht). reflexivity. Qed.

Lemma C21_pf (L : list bytes) salt t0 T miss input t1 (LD : list (option bytes)) salt' t' l (d : bytes) :
  saltSizeBytes P <= length salt -> saltSizeBytes P <= length salt' ->
  length L = n -> (forall x, In x L -> sz <= length x) ->
  createTree n sz = Ok t0 -> buildMerkleTree E P t0 (map (@Some bytes) L) salt = Ok T ->
  Forall (fun l => l < n) miss -> length miss < n -> length LD = n ->
  (forall l (d : bytes), nth l LD None = Some d -> sz <= length d) ->
  addMerkleNodes t0 miss input = Ok (Some t1) ->
  verifyMerkleTree E P t1 LD salt' = Ok (Some t') ->
  root_value t' = root_value T ->
  l < n -> ~ In l miss -> nth l LD None = Some d ->
  firstn sz d <> firstn sz (nth l L []) \/ firstn (saltSizeBytes P) salt' <> firstn (saltSizeBytes P) salt ->
  exists p, collide E P (Some 3%N) (merkle_string P t' salt' p) (merkle_string P T salt p).
Proof.
  intros Hsalt Hsalt' HL HLl Ht0e HTe Hmiss Hml HLD HLDd Ha Hv Hroot Hl Hnl Hd Hne.
  destruct (verified_path (Nat.log2_up n) t0 miss input t1 LD salt' t') as (Hs' & Hp & Hlv); auto.
  destruct Hsize as (Hn & Hbig & Hint). remember (Nat.log2_up n) as D eqn:HD.
  pose proof (D_bound n D Hn HD Hbig) as HnD.
  pose proof (createTree_ok n D Hn HD Hbig sz) as Ht0. rewrite Ht0e in Ht0. cbn [ok] in Ht0.
  destruct Ht0 as (Ht0 & Hz0 & Hh0).
  pose proof (buildMerkleTree_ok E P HE n D Hn HnD salt Hsalt t0 L Ht0 Hh0 Hz0 HL HLl) as HT.
  rewrite HTe in HT. cbn [ok] in HT. pose proof HT as (Ts & Th & Tl & Tz & Tc).
  destruct (path_binding E P n D Hn HnD t' T salt' salt l) as (p & Hc); auto.
  - eapply full_path; eauto.
  - rewrite (Hlv l d), Tl by auto. auto.
  - exists p. rewrite !(merkle_string_eq D) by auto. exact Hc.
Qed.

Lemma C21_two_pf t0 missA inputA tA (LDA : list (option bytes)) saltA tA' missB inputB tB (LDB : list (option bytes)) saltB tB' l (dA dB : bytes) :
  saltSizeBytes P <= length saltA -> saltSizeBytes P <= length saltB ->
  createTree n sz = Ok t0 ->
  Forall (fun l => l < n) missA -> length missA < n -> length LDA = n ->
  (forall l (d : bytes), nth l LDA None = Some d -> sz <= length d) ->
  addMerkleNodes t0 missA inputA = Ok (Some tA) -> verifyMerkleTree E P tA LDA saltA = Ok (Some tA') ->
  Forall (fun l => l < n) missB -> length missB < n -> length LDB = n ->
  (forall l (d : bytes), nth l LDB None = Some d -> sz <= length d) ->
  addMerkleNodes t0 missB inputB = Ok (Some tB) -> verifyMerkleTree E P tB LDB saltB = Ok (Some tB') ->
  root_value tA' = root_value tB' ->
  l < n -> ~ In l missA -> ~ In l missB -> nth l LDA None = Some dA -> nth l LDB None = Some dB ->
  firstn sz dA <> firstn sz dB \/ firstn (saltSizeBytes P) saltA <> firstn (saltSizeBytes P) saltB ->
  exists p, collide E P (Some 3%N) (merkle_string P tA' saltA p) (merkle_string P tB' saltB p).
Proof.
  intros HsA HsB Ht0e HmA HlA HLA HdA HaA HvA HmB HlB HLB HdB HaB HvB Hroot Hl HnA HnB HgA HgB Hne.
  destruct (verified_path (Nat.log2_up n) t0 missA inputA tA LDA saltA tA') as (SA & PA & VA); auto.
  destruct (verified_path (Nat.log2_up n) t0 missB inputB tB LDB saltB tB') as (SB & PB & VB); auto.
  destruct Hsize as (Hn & Hbig & Hint). remember (Nat.log2_up n) as D eqn:HD.
  pose proof (D_bound n D Hn HD Hbig) as HnD.
  destruct (path_binding E P n D Hn HnD tA' tB' saltA saltB l) as (p & Hc); auto.
  - rewrite (VA l dA), (VB l dB) by auto. auto.
  - exists p. rewrite !(merkle_string_eq D) by auto. exact Hc.
Qed.

End MerkleTop.
