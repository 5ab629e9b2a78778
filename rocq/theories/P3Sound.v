(** Picnic3: two openings of a repetition with different hidden parties, and its preprocessing opened,
    give a key or a hash collision. *)

From Coq Require Import List NArith Arith Bool Btauto Lia ZifyBool ZifyNat ZifyN.
From Verif Require Import Base Params Env Spec LowMC Tree Picnic3 Api ApiSpec SigSpec BaseFacts ParamFacts ApiFacts LowMCFacts
  LowMCInj UtilFacts ZkbChal TreeShape TreeSeed TreeReveal TreeOpen TreeMissing TreeMerkle TreeVerify TreeSpec TreeTop
  P3Tape P3Aux P3Online P3Mask P3Chal P3Round P3Seeds P3Verify P3Codec P3Sign P3Ext P3Api P3Spec P3Props
  ZkbppSpec ZkbppProofs ZkbppProofs4 KkwSpec KkwTree KkwNodes KkwChal KkwOnline KkwSign KkwVerify SoundSpec Hint.
Import ListNotations.

Local Opaque pack.

(** ** The online phase *)
Section O.
Variable E : env.
Variable P : paramset.
Hypothesis HP3 : wfP3 P.
Hypothesis HE : env_bytes_ok E.

Let n := stateSizeBits P.
Let m := numSboxes P.
Let R := numRounds P.
Let W := stateSizeWords P.

Variable A : nat -> vec.
Variables key pt : vec.

Section Two.
Variables (Tb Tc : nat -> vec) (ub uc : nat) (Mb Mc kb kc : vec).
Hypothesis Hne : ub <> uc.
Hypothesis HTb : forall i p, i < 16 -> i <> ub -> p < 2 * n * R -> Tb i p = A i p.
Hypothesis HTc : forall i p, i < 16 -> i <> uc -> p < 2 * n * R -> Tc i p = A i p.
Hypothesis Hkb : veq n kb key.
Hypothesis Hkc : veq n kc key.

Let sb := ost E P Tb (Some ub) Mb kb pt.
Let sc := ost E P Tc (Some uc) Mc kc pt.
Let sa := ost E P A None vzero key pt.

Hypothesis Hms : forall i j q, i < 16 -> j < R -> q < n ->
  osh P Tb (Some ub) Mb (sb j) j i q = osh P Tc (Some uc) Mc (sc j) j i q.

Lemma osh_own T u M v j i q : i < 16 -> i <> u -> j < R -> q < n ->
  (forall i p, i < 16 -> i <> u -> p < 2 * n * R -> T i p = A i p) -> veq n v (sa j) ->
  osh P T (Some u) M v j i q = osh P A None vzero (sa j) j i q.
Proof.
  intros Hi Hu Hj Hq HT Hv. unfold osh. cbn [isu]. fold n. replace (i =? u) with false by (clear - Hu; lia).
  destruct (ga_lt P HP3 q Hq) as [G1 G2]. fold n in G1, G2.
  assert (J : 2 * n * j + n + n <= 2 * n * R) by (clear - Hj; nia).
  rewrite (Hv (ga q)), (Hv (gb q)) by auto. rewrite !HT by (auto; clear - J G1 G2 Hq; lia). reflexivity.
Qed.

Lemma step_state T u M k j : veq n k key -> veq n (ost E P T (Some u) M k pt j) (sa j) ->
  (forall i q, i < 16 -> q < n -> osh P T (Some u) M (ost E P T (Some u) M k pt j) j i q = osh P A None vzero (sa j) j i q) ->
  veq n (ost E P T (Some u) M k pt (S j)) (sa (S j)).
Proof.
  intros Hk IH Ho i Hi. unfold sa. cbn [ost]. fold n W m. fold (sa j). unfold vxor. f_equal; [f_equal|].
  - apply matvec_ext. intros k' Hk'. pose proof (w3_m P HP3) as Hnm. fold m n in Hnm.
    apply (hsbox_ext n); [lia|exact IH| |exact Hk'].
    intros q Hq. assert (Hqn : q < n) by lia. unfold ohh.
    destruct (ga_lt P HP3 q Hqn) as [G1 G2]. fold n in G1, G2.
    rewrite (IH (ga q)), (IH (gb q)) by auto. f_equal. apply xsum_ext. intros x Hx. apply Ho; auto.
  - apply matvec_ext. exact Hk.
Qed.

Lemma two_states j : j <= R -> veq n (sb j) (sa j) /\ veq n (sc j) (sa j).
Proof.
  induction j as [|j IH]; intros Hj.
  - split; intros i Hi; unfold sb, sc, sa; cbn [ost]; fold n W; unfold vxor; f_equal; apply matvec_ext; auto.
  - assert (Hj' : j < R) by lia. destruct IH as [Ib Ic]; [lia|].
    assert (Hall : forall i q, i < 16 -> q < n -> osh P Tb (Some ub) Mb (sb j) j i q = osh P A None vzero (sa j) j i q).
    { intros i q Hi Hq. destruct (Nat.eq_dec i ub) as [Hu|Hu].
      - rewrite Hms by auto. apply osh_own; auto. congruence.
      - apply osh_own; auto. }
    split; apply step_state; auto.
    intros i q Hi Hq. fold (sc j). rewrite <- Hms by auto. apply Hall; auto.
Qed.
End Two.
End O.

(** ** Binding of the Merkle tree, on the specification *)
Lemma hash_or (E : env) P pre (x y : bytes) :
  hash E P pre [x] (digestSizeBytes P) = hash E P pre [y] (digestSizeBytes P) -> x = y \/ collide E P pre x y.
Proof.
  intros H. destruct (eqb_bytes x y) eqn:Eb.
  - left. apply eqb_bytes_eq. auto.
  - right. split; [|exact H]. intros ->. rewrite (proj2 (eqb_bytes_eq y y) eq_refl) in Eb. discriminate.
Qed.

Lemma fold_append_new {A} (f : A -> nat) l : forall z x, In x (fold_left (fun z a => append_new z (f a)) l z) ->
  In x z \/ exists a, In a l /\ x = f a.
Proof.
  induction l as [|a l IH]; intros z x Hx; cbn [fold_left] in Hx; [auto|].
  destruct (IH _ _ Hx) as [Hz|(b & Hb & ->)]; [|right; exists b; split; [right; auto|auto]].
  unfold append_new in Hz. destruct (member (f a) z); [auto|].
  apply in_app_or in Hz. destruct Hz as [Hz|[<-|[]]]; [auto|]. right. exists a. split; [left; auto|auto].
Qed.

Lemma last_In {A} (l : list A) d : l <> [] -> In (last l d) l.
Proof.
  induction l as [|a l IH]; [contradiction|]. intros _. destruct l as [|b l]; [left; reflexivity|].
  right. apply IH. discriminate.
Qed.

Section Mk.
Variable n : nat.
Hypothesis Hn : 2 <= n <= 1024.
Let D := Nat.log2_up n.
Let Hn2 : 2 <= n := proj1 Hn.
Let HnD : n <= 2 ^ D := n_pow n Hn.

Lemma D_pos : 0 < D.
Proof. unfold D. apply Nat.log2_up_pos. lia. Qed.

Lemma open_nodes_lacking miss x : Forall (fun l => l < n) miss -> In x (open_nodes n miss) -> lacking n miss x = true.
Proof.
  intros Hm Hx. unfold open_nodes in Hx. apply fold_append_new in Hx. destruct Hx as [[]|(l & Hl & ->)].
  pose proof (proj1 (Forall_forall _ _) Hm l Hl) as Hln. cbn beta in Hln. unfold top_lacking.
  assert (Hleaf : lacking n miss (leaf n l) = true).
  { apply (lacking_iff n Hn); [exact Hm|]. fold D. split; [rewrite leaf_eq; apply ext_leaf; auto|].
    intros l' d Hl' Hd Ha. rewrite leaf_eq in Ha. fold D in Ha. unfold nF in Ha. pose proof (pow_pos D).
    assert (d = 0) as ->.
    { destruct d as [|d]; [reflexivity|]. destruct (anc_rng n D Hn2 HnD l' (S d) Hl' Hd) as [_ H1].
      pose proof (Nat.pow_le_mono_r 2 (D - S d) (D - 1) ltac:(lia) ltac:(lia)).
      assert (2 * 2 ^ (D - 1) = 2 ^ D) by (rewrite <- Nat.pow_succ_r'; f_equal; pose proof D_pos; lia). lia. }
    rewrite anc_0 in Ha. replace l' with l by lia. auto. }
  assert (Hne : filter (lacking n miss) (map (fun d => ancestor d (leaf n l)) (seq 0 (depth n))) <> []).
  { intros He. assert (Hi : In (leaf n l) (filter (lacking n miss) (map (fun d => ancestor d (leaf n l)) (seq 0 (depth n))))).
    { apply filter_In. split; [|auto]. apply in_map_iff. exists 0. split; [reflexivity|].
      apply in_seq. unfold depth. fold D. pose proof D_pos. lia. }
    rewrite He in Hi. destruct Hi. }
  apply (last_In _ (leaf n l)) in Hne. apply filter_In in Hne. apply Hne.
Qed.

Lemma path_not_open miss t k : Forall (fun l => l < n) miss -> t < n -> ~ In t miss -> k <= D ->
  member (ancestor k (leaf n t)) (open_nodes n miss) = false.
Proof.
  intros Hm Ht Hnm Hk. apply member_false. intros Hi. apply open_nodes_lacking in Hi; auto.
  apply (lacking_iff n Hn) in Hi; [|exact Hm]. destruct Hi as [_ Hi]. fold D in Hi. apply Hnm, (Hi t k); auto.
  rewrite (ancestor_eq n Hn) by auto. fold D. pose proof (anc_rng n D Hn2 HnD t k Ht Hk). pose proof (pow_pos (D - k)). lia.
Qed.

Lemma path_height t k : t < n -> k <= D -> height n (ancestor k (leaf n t)) = k.
Proof.
  intros Ht Hk. rewrite (ancestor_eq n Hn) by auto. fold D. unfold height, depth. fold D.
  pose proof (anc_rng n D Hn2 HnD t k Ht Hk) as [R1 R2]. pose proof (pow_pos (D - k)).
  replace (anc D t k - 1 + 1) with (anc D t k) by lia.
  rewrite (Nat.log2_unique (anc D t k) (D - k)); [lia|lia|]. split; [exact R1|]. rewrite Nat.pow_succ_r'. exact R2.
Qed.

Lemma path_child t k : t < n -> S k <= D ->
  let i := ancestor (S k) (leaf n t) in
  ancestor k (leaf n t) = 2 * i + 1 \/ ancestor k (leaf n t) = 2 * i + 2 /\ in_tree n (2 * i + 2) = true.
Proof.
  intros Ht Hk i. assert (Hp : i = parent (ancestor k (leaf n t))) by reflexivity.
  pose proof (anc_ge2 n D Hn2 HnD t k Ht ltac:(lia)) as H2.
  assert (Ha : ancestor k (leaf n t) = anc D t k - 1) by (apply (ancestor_eq n Hn); auto; lia).
  assert (Hpos : 0 < ancestor k (leaf n t)) by lia.
  assert (Hc : ancestor k (leaf n t) = 2 * i + 1 \/ ancestor k (leaf n t) = 2 * i + 2).
  { rewrite Hp. unfold parent. set (x := ancestor k (leaf n t)) in *. destruct (half_cases (x - 1)); lia. }
  destruct Hc as [Hc|Hc]; [auto|right]. split; [auto|]. rewrite <- Hc. unfold in_tree. apply existsb_exists.
  exists t. split; [apply in_seq; lia|]. unfold above. apply existsb_exists. exists k.
  split; [apply in_seq; unfold depth; fold D; lia|]. apply Nat.eqb_refl.
Qed.

Variable E : env.
Variable P : paramset.
Variable sp : sparams.
Hypothesis CF : conforms P sp.
Hypothesis HE : env_bytes_ok E.
Let dg := digestSizeBytes P.

Definition mstring (salt : bytes) (z : list nat) (info : bytes) (leaves : nat -> bytes) (i : nat) : bytes :=
  let f := remerkle_node E sp n salt z info leaves (height n i - 1) in
  f (2 * i + 1) ++ (if in_tree n (2 * i + 2) then f (2 * i + 2) else missing_right sp n i) ++ salt ++ le16 i.

Section Len.
Variables (salt : bytes) (z : list nat) (info : bytes) (leaves : nat -> bytes).
Hypothesis Hinfo : length info = length z * dg.
Hypothesis Hleaves : forall l, length (leaves l) = dg.

Lemma remerkle_len k i : length (remerkle_node E sp n salt z info leaves k i) = dg.
Proof.
  destruct k as [|k]; cbn [remerkle_node]; destruct (member i z) eqn:Em; auto.
  - rewrite <- (cf_H P sp CF). fold dg. apply member_In, position_nth in Em. destruct Em as [Em _].
    unfold sub_bytes. rewrite firstn_length, skipn_length, Hinfo. clear - Em. nia.
  - rewrite <- (cf_H P sp CF). fold dg. apply member_In, position_nth in Em. destruct Em as [Em _].
    unfold sub_bytes. rewrite firstn_length, skipn_length, Hinfo. clear - Em. nia.
  - unfold merkle_hash. rewrite (Hi_eq E P sp CF). apply hash_length. auto.
Qed.
End Len.

Section Two.
Variables (salt : bytes) (missA missB : list nat) (infoA infoB : bytes) (leavesA leavesB : nat -> bytes).
Hypothesis HmA : Forall (fun l => l < n) missA.
Hypothesis HmB : Forall (fun l => l < n) missB.
Let zA := open_nodes n missA.
Let zB := open_nodes n missB.
Hypothesis HiA : length infoA = length zA * dg.
Hypothesis HiB : length infoB = length zB * dg.
Hypothesis HlA : forall l, length (leavesA l) = dg.
Hypothesis HlB : forall l, length (leavesB l) = dg.
Variable t : nat.
Hypothesis Ht : t < n.
Hypothesis HtA : ~ In t missA.
Hypothesis HtB : ~ In t missB.

Lemma merkle_bind k : k <= D ->
  remerkle_node E sp n salt zA infoA leavesA k (ancestor k (leaf n t)) =
  remerkle_node E sp n salt zB infoB leavesB k (ancestor k (leaf n t)) ->
  leavesA t = leavesB t \/ exists i, collide E P (Some 3%N) (mstring salt zA infoA leavesA i) (mstring salt zB infoB leavesB i).
Proof.
  induction k as [|k IH]; intros Hk H; cbn [remerkle_node] in H.
  - unfold zA, zB in H. rewrite !path_not_open in H by (auto; lia). cbn [ancestor] in H.
    replace (leaf n t - leaf n 0) with t in H by (rewrite !leaf_eq; lia). auto.
  - unfold zA, zB in H. rewrite !path_not_open in H by auto. fold zA zB in H. unfold merkle_hash in H.
    rewrite !(Hi_eq E P sp CF) in H. apply hash_or in H.
    set (i := ancestor (S k) (leaf n t)) in *.
    assert (Hh : height n i - 1 = k) by (unfold i; rewrite path_height by auto; lia).
    destruct H as [H|H].
    2:{ right. exists i. unfold mstring. rewrite Hh. exact H. }
    apply app_inj_len in H; [|rewrite !remerkle_len; auto]. destruct H as [H1 H2].
    apply IH; [lia|]. destruct (path_child t k Ht Hk) as [Hc|[Hc Hi]]; fold i in Hc; rewrite Hc.
    + exact H1.
    + fold i in Hi. rewrite Hi in H2. apply app_inj_len in H2; [|rewrite !remerkle_len; auto]. apply H2.
Qed.
End Two.
End Mk.

(** ** Structures *)
Lemma map_combine_seq {A B} (f : nat * A -> B) (l : list A) d k : length l = k ->
  map f (combine (seq 0 k) l) = map (fun t => f (t, nth t l d)) (seq 0 k).
Proof.
  intros Hl. apply (nth_ext _ _ (f (0, d)) (f (0, d))).
  - rewrite !map_length, combine_length, seq_length. lia.
  - rewrite map_length, combine_length, seq_length. intros i Hi. rewrite map_nth.
    rewrite combine_nth by (rewrite seq_length; auto). rewrite seq_nth by lia. rewrite nth_map_seq by lia. reflexivity.
Qed.

Lemma shape_raw P (HP3 : wfP3 P) s : sig2_shape P s -> sig3_raw P s.
Proof.
  intros (H1 & H2 & Hx & Hi & Hc & Hl & Hq & Hn). rewrite others_filter in Hc.
  pose proof (T_rng P HP3) as HT.
  assert (Hw : chal_wf P (g_challengeC s) (g_challengeP s)).
  { unfold chal3_wf in Hx. rewrite (w3_N P HP3) in Hx. exact Hx. }
  set (C := g_challengeC s) in *. set (L := g_challengeP s) in *.
  pose proof Hw as (W1 & W2 & W3 & W4 & W5).
  rewrite (revealSize P _ HT C W3) in Hi. injection Hi as Hi.
  rewrite (revealMSize P HP3 _ (others_lt P C)) in Hc. injection Hc as Hc.
  assert (Hin : forall t, In t C -> exists q, nth t (g_proofs s) None = Some q /\ proof2_wf P (party C L t) q).
  { intros t Ht. pose proof Ht as Ht'. apply In_nth_error in Ht. destruct Ht as (k & Hk).
    assert (k < length C) by (apply nth_error_Some; congruence).
    destruct (nth_error L k) as [v|] eqn:Hv.
    - destruct (Hq k t v Hk Hv) as (q & Hnth & Hwf). exists q. rewrite (party_nth P C L k t v Hw Hk Hv).
      split; [|auto]. apply (nth_error_nth _ _ None) in Hnth. auto.
    - apply nth_error_None in Hv. lia. }
  unfold sig3_raw. fold C L. repeat (split; [solve [auto]|]). intros t Ht. unfold rwf.
  destruct (contains C t) eqn:Ec.
  - apply contains_In in Ec. destruct (Hin t Ec) as (q & -> & Q). exists q. split; [reflexivity|].
    destruct Q as (Q1 & Q2 & Q3 & Q4 & Q5 & Q6 & Q7 & Q8 & Q10). split.
    + unfold proof_wf. auto 10.
    + intros Hp. rewrite Hp in Q10. exact Q10.
  - apply nth_error_opt; [lia|]. apply Hn; auto. intros Hi'. apply contains_In in Hi'. congruence.
Qed.

Lemma as_ksig_eq P (HP3 : wfP3 P) s : sig3_raw P s -> as_ksig P s = ksig_of P s.
Proof.
  intros (H1 & H2 & Hw & Hi & Hc & Hl & Hr). unfold as_ksig, ksig_of. f_equal.
  rewrite (map_combine_seq _ _ None) by exact Hl. apply map_ext_in. intros t Ht. apply in_seq in Ht.
  cbn [fst snd]. specialize (Hr t ltac:(lia)). unfold rwf in Hr. unfold kopen_at.
  destruct (contains (g_challengeC s) t) eqn:Ec.
  - destruct Hr as (q & -> & _). unfold as_kopen, kopen_of. rewrite (w3_N P HP3).
    rewrite (unopened_eq P) by (auto; apply contains_In; auto). reflexivity.
  - rewrite Hr. reflexivity.
Qed.

Lemma all_or k (A : nat -> Prop) (B : Prop) : (forall j, j < k -> A j \/ B) -> (forall j, j < k -> A j) \/ B.
Proof.
  induction k as [|k IH]; intros H; [left; intros j Hj; lia|].
  destruct IH as [H'|]; [intros j Hj; apply H; lia| |auto]. destruct (H k) as [Hk|]; [lia| |auto].
  left. intros j Hj. destruct (Nat.eq_dec j k) as [->|]; [auto|apply H'; lia].
Qed.

Lemma flat_map_inj (f g : nat -> bytes) len k : forall i rest rest',
  (forall j, i <= j < i + k -> length (f j) = len /\ length (g j) = len) ->
  flat_map f (seq i k) ++ rest = flat_map g (seq i k) ++ rest' ->
  (forall j, i <= j < i + k -> f j = g j) /\ rest = rest'.
Proof.
  induction k as [|k IH]; intros i rest rest' Hl H.
  - split; [intros j Hj; lia|exact H].
  - cbn [seq flat_map] in H. rewrite <- !app_assoc in H. destruct (Hl i ltac:(lia)) as [L1 L2].
    apply app_inj_len in H; [|lia]. destruct H as [H1 H2].
    destruct (IH (S i) rest rest') as [H3 H4]; [intros j Hj; apply Hl; lia|exact H2|].
    split; [|exact H4]. intros j Hj. destruct (Nat.eq_dec j i) as [->|]; [auto|apply H3; lia].
Qed.

(** ** Two accepted structures with the same challenge hash *)
Section P.
Variable E : env.
Variable P : paramset.
Variable sp : sparams.
Hypothesis HP3 : wfP3 P.
Hypothesis CF : conforms P sp.
Hypothesis HE : env_bytes_ok E.
Variables pub pt msg : bytes.

Let n := stateSizeBits P.
Let R := numRounds P.
Let W := stateSizeWords P.
Let sB := stateSizeBytes P.
Let aB := andSizeBytes P.
Let dg := digestSizeBytes P.
Let sz := seedSizeBytes P.
Let T := numMPCRounds P.
Let DT := Nat.log2_up T.
Let L := lowmc_of E P.
Let Ki := spec_K0inv E P.
Let Li := spec_Linv E P.
Let Cb := block P pub.
Let pb := block P pt.
Let HT : 2 <= T <= 1024 := T_rng P HP3.

Hypothesis Hpt : 4 * W <= length pt.
Hypothesis Hpub : sB <= length pub.

Definition str (s : signature2) (x : place) : bytes :=
  hashed_at E sp L Ki Li Cb pb msg (g_challengeC s) (g_challengeP s) (ksig_of P s) x.
Definition clash (a b : signature2) : Prop := exists x, collide E P (place_prefix x) (str a x) (str b x).

Lemma Hp_or x y : Hp E sp x = Hp E sp y -> x = y \/ collide E P None x y.
Proof.
  intros H. rewrite (Hp_eq E P sp CF x [x]), (Hp_eq E P sp CF y [y]) in H by (cbn [concat]; rewrite app_nil_r; reflexivity).
  apply hash_or in H. exact H.
Qed.

Lemma Hp_len x : length (Hp E sp x) = dg.
Proof. rewrite (Hp_eq E P sp CF x [x]) by (cbn [concat]; rewrite app_nil_r; reflexivity). apply hash_length. auto. Qed.

Lemma clash_at a b x : str a x = str b x \/ collide E P (place_prefix x) (str a x) (str b x) ->
  str a x = str b x \/ clash a b.
Proof. intros [H|H]; [auto|]. right. exists x. exact H. Qed.

Definition accepted (s : signature2) : Prop :=
  sig3_raw P s /\ vresult E P s pub pt msg = true.

Lemma acc_check s : accepted s -> kcheck E sp L Ki Li Cb pb msg (g_challengeC s) (g_challengeP s) (ksig_of P s) = true.
Proof. intros [Hr Hv]. rewrite <- Hv. apply (kcheck_eq E P sp HP3 CF HE); auto. Qed.

Lemma acc_hash s : accepted s -> g_challengeHash s = Hp E sp (str s PChallenge).
Proof.
  intros Ha. apply acc_check in Ha. unfold kcheck in Ha. apply andb_true_iff in Ha. destruct Ha as [_ Ha].
  apply eqb_bytes_eq in Ha. exact Ha.
Qed.

Lemma acc_out s t : accepted s -> In t (g_challengeC s) ->
  oout E P (votl E P s t) (Some (vparty s t)) (vml P s t) (bit (q_input (pf s t))) (bit pt) = firstn sB pub.
Proof.
  intros Ha Hin. pose proof (acc_check s Ha) as Hk. unfold kcheck in Hk. apply andb_true_iff in Hk. destruct Hk as [Hk _].
  rewrite forallb_forall in Hk. specialize (Hk t Hin). apply eqb_bytes_eq in Hk.
  rewrite <- (voutput_eq E P sp HP3 CF HE s pub pt (proj1 Ha) Hpt Hpub t Hin). exact Hk.
Qed.

Lemma root_len s : sig3_raw P s -> length (node_at E sp L pb (g_challengeC s) (g_challengeP s) (ksig_of P s) (depth (sp_T sp)) 0) = dg.
Proof.
  intros Hr. destruct (vmerkle_eq E P sp HP3 CF HE s pub pt Hr Hpt Hpub) as (tr & _ & Hs & Hv).
  unfold vroot in Hv. unfold node_at. etransitivity; [exact (f_equal (@length N) Hv)|].
  unfold nd. apply (sh_nl _ _ _ _ Hs). unfold nN. pose proof (pow_pos (Nat.log2_up (numMPCRounds P))). lia.
Qed.

Lemma vC_len s t j : sig3_raw P s -> t < T -> j < 16 ->
  length (vC E sp L Ki Li (g_challengeC s) (g_challengeP s) (ksig_of P s) t j) = dg.
Proof.
  intros Hr Ht Hj. etransitivity; [exact (f_equal (@length N) (vC_eq E P sp HP3 CF HE s pub pt Hr Hpt Hpub t j Ht Hj))|].
  apply (proj2 (vrow_drow E P s pub pt HE (raw_wf P s Hr) Hpt Hpub t Ht)). auto.
Qed.

Lemma link a b t : accepted a -> accepted b -> g_challengeHash a = g_challengeHash b -> t < T ->
  clash a b \/
  (g_salt a = g_salt b /\
   node_at E sp L pb (g_challengeC a) (g_challengeP a) (ksig_of P a) (depth (sp_T sp)) 0 =
   node_at E sp L pb (g_challengeC b) (g_challengeP b) (ksig_of P b) (depth (sp_T sp)) 0 /\
   forall j, j < 16 -> vC E sp L Ki Li (g_challengeC a) (g_challengeP a) (ksig_of P a) t j =
                       vC E sp L Ki Li (g_challengeC b) (g_challengeP b) (ksig_of P b) t j).
Proof.
  intros Ha Hb Hh Ht. rewrite (acc_hash a Ha), (acc_hash b Hb) in Hh. apply Hp_or in Hh.
  apply (clash_at a b PChallenge) in Hh. destruct Hh as [Hh|Hh]; [|auto].
  unfold str, hashed_at in Hh.
  apply (flat_map_inj _ _ dg) in Hh; [|intros j Hj; split; apply Hp_len]. destruct Hh as [H1 H2].
  specialize (H1 t). rewrite <- (cf_T P sp CF) in H1. fold T in H1. specialize (H1 ltac:(lia)).
  apply app_inj_len in H2; [|rewrite !root_len by (apply Ha || apply Hb); reflexivity]. destruct H2 as [H2 H3].
  cbn [ksig_of ks_salt] in H3.
  apply app_inj_len in H3; [|rewrite (salt32 P sp CF a (proj1 Ha)), (salt32 P sp CF b (proj1 Hb)); reflexivity].
  destruct H3 as [H3 _].
  apply Hp_or in H1. apply (clash_at a b (PRow t)) in H1. destruct H1 as [H1|H1]; [|auto]. right.
  split; [exact H3|]. split; [exact H2|].
  unfold str, hashed_at, row_at in H1. rewrite (sp_N_eq P sp HP3 CF) in H1.
  rewrite <- (app_nil_r (flat_map _ _)) in H1. rewrite <- (app_nil_r (flat_map (vC E sp L Ki Li (g_challengeC b) _ _ t) _)) in H1.
  apply (flat_map_inj _ _ dg) in H1.
  - destruct H1 as [H1 _]. intros j Hj. apply H1. lia.
  - intros j Hj. split; apply vC_len; auto; try lia; apply Ha || apply Hb.
Qed.

(** The seeds and auxiliary bits shown by both. *)
Lemma link_seeds a b t : accepted a -> accepted b -> t < T -> ~ In t (g_challengeC a) -> In t (g_challengeC b) ->
  g_salt a = g_salt b ->
  (forall j, j < 16 -> vC E sp L Ki Li (g_challengeC a) (g_challengeP a) (ksig_of P a) t j =
                       vC E sp L Ki Li (g_challengeC b) (g_challengeP b) (ksig_of P b) t j) ->
  clash a b \/
  ((forall j, j < 16 -> j <> vparty b t -> leaf16 (P3Verify.vseeds E P a t) j = leaf16 (P3Verify.vseeds E P b t) j) /\
   (vparty b t <> 15 -> aux_of P (aux_tapes E P (P3Verify.vtapes0 E P a t)) = q_aux (pf b t))).
Proof.
  intros Ha Hb Ht Hna Hib Hsalt HvC.
  assert (Haux : vaux E sp L Ki Li (g_challengeC a) (g_challengeP a) (ksig_of P a) t
                 = aux_of P (aux_tapes E P (P3Verify.vtapes0 E P a t))).
  { unfold vaux. rewrite member_contains.
    replace (contains (g_challengeC a) t) with false by (symmetry; apply contains_false; auto).
    apply (aux_bytes_eq E P sp HP3 CF); [apply (vtapes0_rows E P a HE)|].
    intros j' p Hj'. apply (vtp_eq E P sp HP3 CF HE a pub pt (proj1 Ha) Hpt Hpub); auto. intros H; contradiction. }
  assert (Hbux : vparty b t <> 15 -> vaux E sp L Ki Li (g_challengeC b) (g_challengeP b) (ksig_of P b) t = q_aux (pf b t)).
  { intros Hne. unfold vaux. rewrite member_contains.
    replace (contains (g_challengeC b) t) with true by (symmetry; apply contains_In; auto).
    rewrite (vopen_eq P b (proj1 Hb) t Hib Ht). cbn [kopen_of ko_aux]. change (party (g_challengeC b) (g_challengeP b) t) with (vparty b t).
    replace (vparty b t =? 15) with false by lia. reflexivity. }
  assert (Hstr : (forall j, j < 16 -> j <> vparty b t -> str a (PSeed t j) = str b (PSeed t j)) \/ clash a b).
  { destruct (all_or 16 (fun j => j <> vparty b t -> str a (PSeed t j) = str b (PSeed t j)) (clash a b)) as [H|H]; auto.
    intros j Hj. destruct (Nat.eq_dec j (vparty b t)) as [He|Hne]; [left; intros H; contradiction|].
    specialize (HvC j Hj). unfold vC in HvC. rewrite !member_contains in HvC.
    replace (contains (g_challengeC a) t) with false in HvC by (symmetry; apply contains_false; auto).
    rewrite (vhid_eq P b (proj1 Hb) t Hib) in HvC. replace (j =? vparty b t) with false in HvC by lia.
    rewrite andb_false_r in HvC. cbn [andb] in HvC. unfold commit_seed in HvC. apply Hp_or in HvC.
    apply (clash_at a b (PSeed t j)) in HvC. destruct HvC; auto. }
  destruct Hstr as [Hstr|]; [right|auto].
  assert (Hsd : forall j, j < 16 -> j <> vparty b t ->
    leaf16 (P3Verify.vseeds E P a t) j = leaf16 (P3Verify.vseeds E P b t) j /\
    (j = 15 -> aux_of P (aux_tapes E P (P3Verify.vtapes0 E P a t)) = q_aux (pf b t))).
  { intros j Hj Hne. specialize (Hstr j Hj Hne). unfold str, hashed_at in Hstr.
    rewrite (vseed_eq E P sp HP3 CF HE a pub pt (proj1 Ha) Hpt Hpub t j Ht Hj) in Hstr by (intros H; contradiction).
    rewrite (vseed_eq E P sp HP3 CF HE b pub pt (proj1 Hb) Hpt Hpub t j Ht Hj) in Hstr by (intros _; exact Hne).
    apply app_inj_len in Hstr;
      [|rewrite (vleaf_sz E P HP3 HE a pub pt (proj1 Ha) Hpt Hpub t j Ht Hj),
                (vleaf_sz E P HP3 HE b pub pt (proj1 Hb) Hpt Hpub t j Ht Hj); reflexivity].
    destruct Hstr as [S1 S2]. split; [exact S1|]. intros ->.
    rewrite (sp_N_eq P sp HP3 CF) in S2. change (15 =? 16 - 1) with true in S2. cbv iota in S2.
    rewrite Haux, Hbux in S2 by auto. apply app_inj_len in S2; [apply S2|].
    destruct (aux_of_spec P HP3 (aux_tapes E P (P3Verify.vtapes0 E P a t))) as [-> _].
    destruct (pf_ok P b pub pt (raw_wf P b (proj1 Hb)) Hpt Hpub t Hib) as [_ (_ & Q2 & _)]. symmetry. exact Q2. }
  split.
  - intros j Hj Hne. apply Hsd; auto.
  - intros Hne. apply (Hsd 15); auto; lia.
Qed.

(** Then the tapes of the online phase agree. *)
Lemma link_tapes a b t : g_salt a = g_salt b -> In t (g_challengeC b) -> accepted b ->
  (forall j, j < 16 -> j <> vparty b t -> leaf16 (P3Verify.vseeds E P a t) j = leaf16 (P3Verify.vseeds E P b t) j) ->
  (vparty b t <> 15 -> aux_of P (aux_tapes E P (P3Verify.vtapes0 E P a t)) = q_aux (pf b t)) ->
  forall i p, i < 16 -> i <> vparty b t -> p < 2 * n * R ->
  tbit (votl E P b t) i p = tbit (aux_tapes E P (P3Verify.vtapes0 E P a t)) i p.
Proof.
  intros Hsalt Hib Hb Hsd Hax i p Hi Hne Hp.
  pose proof (vtapes0_rows E P a HE t) as Hra. pose proof (vtapes0_rows E P b HE t) as Hrb.
  destruct (party_lt P b (raw_wf P b (proj1 Hb)) t Hib) as [_ Hu].
  assert (Hrow : nth i (P3Verify.vtapes0 E P b t) [] = nth i (P3Verify.vtapes0 E P a t) []).
  { unfold P3Verify.vtapes0, tapes_of. rewrite !nth_map_seq by auto. rewrite Hsd, Hsalt by auto. reflexivity. }
  assert (Hb0 : forall q, tbit (P3Verify.vtapes0 E P b t) i q = tbit (P3Verify.vtapes0 E P a t) i q).
  { intros q. unfold tbit. rewrite Hrow. reflexivity. }
  destruct (aux_tapes_spec E P HP3 _ Hra) as (_ & G1 & G2 & _ & G4).
  unfold votl. set (u := vparty b t) in *.
  assert (Hset : forall l z, length l = 16 -> tbit (list_set l u z) i p = tbit l i p).
  { intros l z Hl. unfold tbit. rewrite nth_list_set by lia. replace (i =? u) with false by lia. reflexivity. }
  destruct (Nat.eqb_spec u 15) as [H15|H15].
  - rewrite Hset by apply Hrb. rewrite Hb0. rewrite G1 by lia. reflexivity.
  - destruct (with_aux_spec P HP3 (P3Verify.vtapes0 E P b t) (q_aux (pf b t)) Hrb) as (V0 & V1 & V2 & _ & V4).
    rewrite Hset by apply V0. destruct (Nat.eq_dec i 15) as [->|Hi15].
    + destruct (tape_cases P HP3 p Hp) as (j & q & Hj & Hq & [->| ->]).
      * rewrite V2, G2 by auto. apply Hb0.
      * rewrite V4 by auto. rewrite <- Hax by auto. apply (aux_of_spec P HP3); auto.
    + rewrite V1, G1 by lia. apply Hb0.
Qed.

(** The views agree, or the Merkle trees give a collision. *)
Lemma vCv_len' LC LP z t : length (vCv E sp L pb LC LP z t) = dg.
Proof. unfold vCv, commit_view. apply Hp_len. Qed.

Lemma link_views a b t : accepted a -> accepted b -> In t (g_challengeC a) -> In t (g_challengeC b) ->
  g_salt a = g_salt b ->
  node_at E sp L pb (g_challengeC a) (g_challengeP a) (ksig_of P a) (depth (sp_T sp)) 0 =
  node_at E sp L pb (g_challengeC b) (g_challengeP b) (ksig_of P b) (depth (sp_T sp)) 0 ->
  clash a b \/
  (q_input (pf a t) = q_input (pf b t) /\ forall j, j < 16 -> nth j (vms E P a pt t) [] = nth j (vms E P b pt t) []).
Proof.
  intros Ha Hb Hia Hib Hsalt Hroot.
  assert (Ht : t < T) by (apply (C_T P a (proj1 Ha)); auto).
  assert (Hinfo : forall s, sig3_raw P s ->
     length (g_cvInfo s) = length (open_nodes T (not_in sp (g_challengeC s))) * dg).
  { intros s Hs. pose proof Hs as (_ & _ & Hw & _ & Hc & _). rewrite Hc. f_equal.
    pose proof (sizes_eq P sp HP3 CF _ _ Hw) as [_ Hz]. rewrite <- (cf_T P sp CF) in Hz. fold T in Hz. symmetry. exact Hz. }
  assert (Hmiss : forall s, Forall (fun l => l < T) (not_in sp (g_challengeC s))).
  { intros s. rewrite (not_in_eq P sp CF). apply others_lt. }
  assert (Hnin : forall s, In t (g_challengeC s) -> ~ In t (not_in sp (g_challengeC s))).
  { intros s Hs Hn. rewrite (not_in_eq P sp CF) in Hn. apply others_In in Hn. apply Hn. auto. }
  assert (Hd : depth (sp_T sp) = DT) by (unfold depth; rewrite <- (cf_T P sp CF); reflexivity).
  rewrite Hd in Hroot. unfold node_at in Hroot. rewrite <- (cf_T P sp CF) in Hroot. fold T in Hroot.
  cbn [ksig_of ks_salt ks_Cv] in Hroot. rewrite <- Hsalt in Hroot.
  assert (Htop : ancestor DT (leaf T t) = 0).
  { rewrite (ancestor_eq T HT) by (auto; unfold DT; lia). fold DT.
    pose proof (anc_rng T DT ltac:(lia) (n_pow T HT) t DT Ht ltac:(lia)) as [R1 R2]. rewrite Nat.sub_diag in R1, R2. cbn in R1, R2. lia. }
  rewrite <- Htop in Hroot.
  apply (merkle_bind T HT E P sp CF HE) in Hroot; auto; try (apply Hinfo; apply Ha || apply Hb); try (intros l; apply vCv_len'); try (unfold DT; lia).
  destruct Hroot as [Hv|(i & Hc)].
  2:{ left. exists (PNode i). unfold str, hashed_at, node_at, place_prefix. rewrite <- (cf_T P sp CF). fold T.
      cbn [ksig_of ks_salt ks_Cv]. rewrite <- Hsalt. exact Hc. }
  unfold vCv, commit_view in Hv. apply Hp_or in Hv. apply (clash_at a b (PView t)) in Hv.
  destruct Hv as [Hv|]; [right|auto]. unfold str, hashed_at in Hv.
  rewrite (key_eq P a (proj1 Ha) t Hia), (key_eq P b (proj1 Hb) t Hib) in Hv.
  destruct (pf_ok P a pub pt (raw_wf P a (proj1 Ha)) Hpt Hpub t Hia) as [_ (_ & _ & _ & A4 & _)].
  destruct (pf_ok P b pub pt (raw_wf P b (proj1 Hb)) Hpt Hpub t Hib) as [_ (_ & _ & _ & B4 & _)].
  apply app_inj_len in Hv; [|congruence]. destruct Hv as [V1 V2]. split; [exact V1|].
  rewrite (sp_N_eq P sp HP3 CF) in V2.
  assert (Hma : forall j, j < 16 -> vmsgs E sp L pb (g_challengeC a) (g_challengeP a) (ksig_of P a) t j = nth j (vms E P a pt t) []).
  { intros j Hj. apply (vmsgs_eq E P sp HP3 CF HE a pub pt (proj1 Ha) Hpt Hpub t Hia j Hj). }
  assert (Hmb : forall j, j < 16 -> vmsgs E sp L pb (g_challengeC b) (g_challengeP b) (ksig_of P b) t j = nth j (vms E P b pt t) []).
  { intros j Hj. apply (vmsgs_eq E P sp HP3 CF HE b pub pt (proj1 Hb) Hpt Hpub t Hib j Hj). }
  assert (V3 := f_equal (fun x => x ++ []) V2). cbv beta in V3. apply (flat_map_inj _ _ aB) in V3.
  - destruct V3 as [V3 _]. intros j Hj. rewrite <- Hma, <- Hmb by auto. apply V3. lia.
  - intros j Hj. rewrite Hma, Hmb by lia. unfold vms. split; apply omsgs_rows; lia.
Qed.
End P.

(** ** Three structures *)
Lemma extract E P sp (HP3 : wfP3 P) (CF : conforms P sp) (HE : env_bytes_ok E) (HI : inverses_ok E P) pub pt msg a b c t :
  4 * stateSizeWords P <= length pt -> stateSizeBytes P <= length pub -> bytes_ok pub ->
  accepted E P pub pt msg a -> accepted E P pub pt msg b -> accepted E P pub pt msg c ->
  g_challengeHash a = g_challengeHash b -> g_challengeHash a = g_challengeHash c ->
  t < numMPCRounds P -> ~ In t (g_challengeC a) -> In t (g_challengeC b) -> In t (g_challengeC c) ->
  vparty b t <> vparty c t ->
  (clash E P sp pub pt msg a b \/ clash E P sp pub pt msg a c \/ clash E P sp pub pt msg b c) \/
  (forall key, (forall i, i < stateSizeBits P -> bit key i =
      extracted E sp (spec_K0inv E P) (g_challengeC a) (g_challengeP a) (ksig_of P a) (q_input (pf b t)) t i) ->
   lowmc_relation E P key pt pub).
Proof.
  intros Hpt Hpub Hpb Ha Hb Hc Hab Hac Ht Hna Hib Hic Hne.
  destruct (link E P sp HP3 CF HE pub pt msg Hpt Hpub a b t Ha Hb Hab Ht) as [H|(Sab & Rab & Cab)]; [auto|].
  destruct (link E P sp HP3 CF HE pub pt msg Hpt Hpub a c t Ha Hc Hac Ht) as [H|(Sac & Rac & Cac)]; [auto|].
  destruct (link_seeds E P sp HP3 CF HE pub pt msg Hpt Hpub a b t Ha Hb Ht Hna Hib Sab Cab) as [H|[Lab Xab]]; [auto|].
  destruct (link_seeds E P sp HP3 CF HE pub pt msg Hpt Hpub a c t Ha Hc Ht Hna Hic Sac Cac) as [H|[Lac Xac]]; [auto|].
  destruct (link_views E P sp HP3 CF HE pub pt msg Hpt Hpub b c t Hb Hc Hib Hic ltac:(congruence) ltac:(congruence))
    as [H|[Kbc Mbc]]; [auto|].
  right. intros key Hkey.
  set (tl := P3Verify.vtapes0 E P a t) in *.
  pose proof (vtapes0_rows E P a HE t) as Hra. fold tl in Hra.
  pose proof (link_tapes E P HP3 HE pub pt msg Hpt Hpub a b t Sab Hib Hb Lab Xab) as Tb. fold tl in Tb.
  pose proof (link_tapes E P HP3 HE pub pt msg Hpt Hpub a c t Sac Hic Hc Lac Xac) as Tc. fold tl in Tc.
  set (mk := bit (q_input (pf b t))) in *.
  assert (Hms : forall i j q, i < 16 -> j < numRounds P -> q < stateSizeBits P ->
    osh P (tbit (votl E P b t)) (Some (vparty b t)) (given_msgs (Some (vparty b t)) (vml P b t))
      (ost E P (tbit (votl E P b t)) (Some (vparty b t)) (given_msgs (Some (vparty b t)) (vml P b t)) mk (bit pt) j) j i q =
    osh P (tbit (votl E P c t)) (Some (vparty c t)) (given_msgs (Some (vparty c t)) (vml P c t))
      (ost E P (tbit (votl E P c t)) (Some (vparty c t)) (given_msgs (Some (vparty c t)) (vml P c t)) mk (bit pt) j) j i q).
  { intros i j q Hi Hj Hq. rewrite <- !(omsgs_at E P HP3) by auto. unfold tbit.
    specialize (Mbc i Hi). unfold vms in Mbc. rewrite <- Kbc in Mbc. fold mk in Mbc. rewrite Mbc. reflexivity. }
  destruct (two_states E P HP3 (tbit (aux_tapes E P tl)) mk (bit pt) _ _ _ _ _ _ mk mk Hne Tb Tc
    ltac:(intros i Hi; reflexivity) ltac:(intros i Hi; reflexivity) Hms (numRounds P) ltac:(lia)) as [Hst _].
  pose proof (acc_out E P sp HP3 CF HE pub pt msg Hpt Hpub b t Hb Hib) as Hout.
  apply (senc_rel E P HP3); auto. rewrite <- Hout. apply eqb_bytes_eq. unfold oout, senc. apply pack_ext. intros k Hk.
  destruct (Nat.ltb_spec k (stateSizeBits P)) as [Hl|Hl]; [|reflexivity]. fold mk. rewrite Hst by auto. symmetry.
  apply (ost_final E P HP3 HI); auto. intros i Hi. unfold vxor. rewrite Hkey by auto. unfold extracted, vxor.
  assert (Hkm : key_mask sp (spec_K0inv E P) (vtp E sp (g_challengeC a) (g_challengeP a) (ksig_of P a) t) i = mkey E P tl i).
  { apply (key_mask_eq E P sp HP3 CF). intros j p Hj.
    apply (vtp_eq E P sp HP3 CF HE a pub pt (proj1 Ha) Hpt Hpub); auto. intros H; contradiction. }
  rewrite Hkm. fold mk. unfold mk. destruct (bit (q_input (pf b t)) i), (mkey E P tl i); reflexivity.
Qed.

Lemma C45_pf E P p sp s1 s2 s3 pub pt msg t q2 :
  get_param_set p = Some P -> is_picnic3 p = true -> table2 p = Some sp ->
  env_bytes_ok E -> constants_ok E P -> inverses_ok E P -> block_wf pub -> block_wf pt ->
  sig2_shape P s1 -> sig2_shape P s2 -> sig2_shape P s3 ->
  g_challengeHash s1 = g_challengeHash s2 -> g_challengeHash s1 = g_challengeHash s3 ->
  verify_picnic3 E P s1 pub pt msg = Ok true -> verify_picnic3 E P s2 pub pt msg = Ok true ->
  verify_picnic3 E P s3 pub pt msg = Ok true ->
  t < numMPCRounds P -> ~ In t (g_challengeC s1) -> In t (g_challengeC s2) -> In t (g_challengeC s3) ->
  unopened (g_challengeC s2) (g_challengeP s2) t <> unopened (g_challengeC s3) (g_challengeP s3) t ->
  nth_error (g_proofs s2) t = Some (Some q2) ->
  let str s := string_of E P sp pub pt msg s in
  (exists x, collide E P (place_prefix x) (str s1 x) (str s2 x) \/
             collide E P (place_prefix x) (str s1 x) (str s3 x) \/
             collide E P (place_prefix x) (str s2 x) (str s3 x)) \/
  (forall key, (forall i, i < stateSizeBits P -> bit key i = key_from E P sp s1 (q_input q2) t i) ->
   lowmc_relation E P key pt pub).
Proof.
  intros HP H3 Htab HE HC HI Wpub Wpt Z1 Z2 Z3 H12 H13 V1 V2 V3 Ht N1 I2 I3 Hu Hq str0.
  pose proof (get_param_set_wfP3 _ _ HP H3) as HP3.
  destruct (table2_conforms p P HP) as (sp' & Htab' & CF). assert (sp' = sp) as -> by congruence.
  apply (shape_raw P HP3) in Z1. apply (shape_raw P HP3) in Z2. apply (shape_raw P HP3) in Z3.
  destruct (block_len P p HP H3 _ Wpt) as [L2 _]. destruct (block_len P p HP H3 _ Wpub) as [_ L3].
  assert (Hacc : forall s, sig3_raw P s -> verify_picnic3 E P s pub pt msg = Ok true -> accepted E P pub pt msg s).
  { intros s Hr Hv. split; [exact Hr|]. rewrite (verify_picnic3_ok E P s pub pt msg HP3 HE HC HI (raw_wf P s Hr) L2 (proj2 Wpt) L3) in Hv.
    injection Hv as Hv. exact Hv. }
  assert (Hstr : forall s x, sig3_raw P s -> str0 s x = str E P sp pub pt msg s x).
  { intros s x Hr. unfold str0, string_of, str. rewrite (as_ksig_eq P HP3 s Hr), (spec_lowmc_eq E P sp CF). reflexivity. }
  pose proof (raw_wf P s2 Z2) as W2. pose proof (raw_wf P s3 Z3) as W3.
  assert (Hp : vparty s2 t <> vparty s3 t).
  { intros He. apply Hu. rewrite (unopened_eq P _ _ t (proj1 (proj2 (proj2 Z2))) I2).
    rewrite (unopened_eq P _ _ t (proj1 (proj2 (proj2 Z3))) I3). exact He. }
  assert (Hpf : pf s2 t = q2) by (unfold pf; rewrite (nth_error_nth _ _ None Hq); reflexivity).
  destruct (extract E P sp HP3 CF HE HI pub pt msg s1 s2 s3 t L2 L3 (proj2 Wpub) (Hacc _ Z1 V1) (Hacc _ Z2 V2) (Hacc _ Z3 V3)
    H12 H13 Ht N1 I2 I3 Hp) as [[(x & H)|[(x & H)|(x & H)]]|H].
  - left. exists x. left. rewrite !Hstr by auto. exact H.
  - left. exists x. right. left. rewrite !Hstr by auto. exact H.
  - left. exists x. right. right. rewrite !Hstr by auto. exact H.
  - right. intros key Hk. apply H. rewrite Hpf. intros i Hi. rewrite Hk by auto. unfold key_from.
    rewrite (as_ksig_eq P HP3 s1 Z1). reflexivity.
Qed.
