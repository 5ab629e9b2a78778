(** Rewinding a ZKB++ signer gives the private key or a collision. *)

From Coq Require Import List NArith Arith Bool Lia ZifyBool ZifyNat ZifyN.
From Verif Require Import Base Params Env Spec LowMC Picnic1 Api ApiSpec SigSpec BaseFacts ParamFacts ApiFacts LowMCFacts LowMCInj
  Hint ZkbMpc Zkb ZkbChal ZkbApi ZkbppSpec ZkbppProofs ZkbppProofs2 ZkbppProofs4 SoundSpec ZkbBind ForkSpec.
Import ListNotations.

(** ** Strings of fixed shape *)

Lemma flat3_inj (f g : nat -> nat -> bytes) l : (forall t j, In t l -> j < 3 -> length (f t j) = length (g t j)) ->
  flat_map (fun t => f t 0 ++ f t 1 ++ f t 2) l = flat_map (fun t => g t 0 ++ g t 1 ++ g t 2) l ->
  forall t j, In t l -> j < 3 -> f t j = g t j.
Proof.
  induction l as [|a l IH]; intros Hl He t j Ht Hj; [destruct Ht|]. cbn [flat_map] in He. rewrite <- !app_assoc in He.
  apply app_inj_len in He; [|apply Hl; [left; auto|lia]]. destruct He as [H0 He].
  apply app_inj_len in He; [|apply Hl; [left; auto|lia]]. destruct He as [H1 He].
  apply app_inj_len in He; [|apply Hl; [left; auto|lia]]. destruct He as [H2 He].
  destruct Ht as [<-|Ht].
  - destruct j as [|[|[|j]]]; auto; lia.
  - apply IH; auto. intros t' j' Ht' Hj'. apply Hl; [right; auto|auto].
Qed.

Section Z.
Variable E : env.
Variable P : paramset.
Variable sp : sparams.
Hypothesis HP1 : wfP1 P.
Hypothesis CF : conforms P sp.
Hypothesis HE : env_bytes_ok E.
Hypothesis HC : constants_ok E P.
Let HP : wfP P := w1_wfP P HP1.
Let Lm := spec_lowmc E P sp.
Let T := sp_T sp.
Let n := sp_n sp.
Let HB := octets (sp_H sp).
Let andB := octets (3 * sp_r sp * sp_s sp).

(** ** Shapes after parsing *)
Definition open_shape (e : nat) (o : zopen) : Prop :=
  length (zo_C o) = HB /\ (sp_UR sp = true -> length (zo_G o) = G_length sp (party_before e)) /\
  length (zo_transcript o) = andB.

Lemma read_len k b x y : read k b = Some (x, y) -> length x = k.
Proof. unfold read. destruct (Nat.leb_spec k (length b)); [|discriminate]. intros [= <- <-]. rewrite firstn_length. lia. Qed.

Lemma read_round_shape e b o b' : read_round sp e b = Some (o, b') -> open_shape e o.
Proof.
  unfold read_round. destruct (read _ b) as [[c b1]|] eqn:R1; [|discriminate].
  destruct (if sp_UR sp then _ else _) as [[g b2]|] eqn:R2; [|discriminate].
  destruct (read _ b2) as [[tr b3]|] eqn:R3; [|discriminate].
  destruct (read _ b3) as [[s1 b4]|]; [|discriminate]. destruct (read _ b4) as [[s2 b5]|]; [|discriminate].
  destruct (if e =? 0 then _ else _) as [[sh b6]|]; [|discriminate]. destruct (_ || _); [|discriminate].
  intros [= <- <-]. unfold open_shape. cbn [zo_C zo_G zo_transcript].
  split; [eapply read_len; eauto|]. split; [|eapply read_len; eauto].
  intros Hu. rewrite Hu in R2. eapply read_len; eauto.
Qed.

Lemma read_rounds_shape es : forall b os, read_rounds sp es b = Some os ->
  forall i d, i < length es -> open_shape (nth i es 0) (nth i os d).
Proof.
  induction es as [|e es IH]; intros b os H i d Hi; [cbn in Hi; lia|]. cbn [read_rounds] in H.
  destruct (read_round sp e b) as [[o b']|] eqn:Ho; [|discriminate].
  destruct (read_rounds sp es b') as [os'|] eqn:Hos; [|discriminate]. injection H as <-.
  destruct i as [|i]; cbn [nth]; [exact (read_round_shape _ _ _ _ Ho)|].
  apply (IH b' os' Hos). cbn [length] in Hi. lia.
Qed.

Lemma parse_shape sg z : zkbpp_parse sp sg = Some z ->
  length (zs_salt z) = 32 /\ forall t, t < T -> open_shape (ver_e z t) (ver_open z t) /\ ver_e z t < 3.
Proof.
  unfold zkbpp_parse. destruct (read _ sg) as [[c b]|]; [|discriminate].
  destruct (read 32 b) as [[salt b']|] eqn:R; [|discriminate].
  destruct (forallb _ _) eqn:Hf; [|discriminate].
  destruct (read_rounds _ _ _) as [os|] eqn:Hr; [|discriminate]. intros [= <-].
  unfold ver_open, ver_e. cbn [zs_salt zs_open zs_e]. split; [eapply read_len; eauto|].
  intros t Ht. split.
  - pose proof (read_rounds_shape _ _ _ Hr t (mkZopen [] [] [] [] [] [])) as H.
    rewrite map_length, seq_length in H. specialize (H Ht).
    rewrite (nth_indep _ 0 (encoded_trit c 0)) in H by (rewrite map_length, seq_length; exact Ht).
    rewrite map_nth, seq_nth in H by exact Ht. exact H.
  - rewrite forallb_forall in Hf. specialize (Hf t). rewrite in_seq in Hf. specialize (Hf ltac:(lia)). lia.
Qed.

Lemma opened_commitment_string p z t k :
  opened_commitment E sp Lm p z t k = Hi E sp 0 (opened_string E sp Lm p z t k).
Proof. reflexivity. Qed.

Variables C p : bytes.
Variable M : bytes.

Definition zstring (z : zsig) : bytes :=
  challenge_string sp (ver_out E sp Lm C p z) (ver_C E sp Lm p z) (ver_G E sp Lm p z) (C ++ p) (zs_salt z) M.

Definition zshape (z : zsig) : Prop :=
  length (zs_salt z) = 32 /\ forall t, t < T -> open_shape (ver_e z t) (ver_open z t) /\ ver_e z t < 3.

Lemma zout_len z t j : length (ver_out E sp Lm C p z t j) = octets n.
Proof. unfold ver_out, three. destruct (j =? _); [|destruct (j =? _)]; apply bytes_of_len. Qed.
Lemma zC_len z t j : zshape z -> t < T -> length (ver_C E sp Lm p z t j) = HB.
Proof.
  intros [_ H] Ht. destruct (H t Ht) as [(H1 & _) _]. unfold ver_C, three, opened_commitment.
  destruct (j =? _); [|destruct (j =? _)]; rewrite ?(Hi_len E sp HE); auto.
Qed.
Lemma zG_len z t j : zshape z -> t < T -> j < 3 -> sp_UR sp = true -> length (ver_G E sp Lm p z t j) = G_length sp j.
Proof.
  intros [_ H] Ht Hj Hu. destruct (H t Ht) as [(_ & H1 & _) He]. specialize (H1 Hu). unfold ver_G, three, opened_G, opened_party, party_after.
  unfold party_before in H1.
  destruct (ver_e z t) as [|[|[|e]]]; [| | |lia]; destruct j as [|[|[|j]]]; try lia; cbn [Nat.add] in *;
    change (0 mod 3) with 0 in *; change (1 mod 3) with 1 in *; change (2 mod 3) with 2 in *; change (3 mod 3) with 0 in *;
    change (4 mod 3) with 1 in *; cbn [Nat.eqb] in *; rewrite ?(KDF_len E sp HE); auto.
Qed.

Lemma zstring_inj z z' : zshape z -> zshape z' -> zstring z = zstring z' ->
  zs_salt z = zs_salt z' /\
  forall t j, t < T -> j < 3 -> ver_out E sp Lm C p z t j = ver_out E sp Lm C p z' t j /\
                                ver_C E sp Lm p z t j = ver_C E sp Lm p z' t j.
Proof.
  intros W W' H. unfold zstring, challenge_string, all_parties in H. fold T in H.
  assert (Hin : forall t, In t (seq 0 T) -> t < T) by (intros t Ht; apply in_seq in Ht; lia).
  apply app_inj_len in H.
  2:{ apply parties_len. intros. rewrite !zout_len. reflexivity. }
  destruct H as [Ho H]. apply app_inj_len in H.
  2:{ apply parties_len. intros. rewrite !zC_len; auto. }
  destruct H as [Hc H]. apply app_inj_len in H.
  2:{ destruct (sp_UR sp) eqn:Hu; [|reflexivity]. apply parties_len. intros. rewrite !zG_len; auto. }
  destruct H as [_ H]. apply app_inv_head in H. apply app_inj_len in H; [|rewrite (proj1 W), (proj1 W'); reflexivity].
  split; [apply H|]. intros t j Ht Hj.
  assert (Hit : In t (seq 0 T)) by (apply in_seq; lia). split.
  - refine (flat3_inj _ _ _ _ Ho t j Hit Hj). intros. rewrite !zout_len. reflexivity.
  - refine (flat3_inj _ _ _ _ Hc t j Hit Hj). intros. rewrite !zC_len; auto.
Qed.

(** ** Three openings of one repetition *)
Lemma Hi_hash i x : Hi E sp i x = hash E P (Some i) [x] (digestSizeBytes P).
Proof. unfold Hi, KDF, hash. rewrite (cf_shake P sp CF), (cf_H P sp CF). cbn [concat prefix_bytes]. rewrite app_nil_r. reflexivity. Qed.

Lemma opened_binds z z' t : zshape z -> zshape z' -> t < T ->
  opened_commitment E sp Lm p z t 0 = opened_commitment E sp Lm p z' t 1 ->
  (collide E P HASH_PREFIX_0 (opened_string E sp Lm p z t 0) (opened_string E sp Lm p z' t 1) \/
   collide E P HASH_PREFIX_4 (opened_seed z t 0) (opened_seed z' t 1)) \/
  (opened_seed z t 0 = opened_seed z' t 1 /\
   bytes_of n (iShare (opened_view E sp Lm p z t 0)) = bytes_of n (iShare (opened_view E sp Lm p z' t 1)) /\
   bytes_of (3 * sp_r sp * sp_s sp) (transcript (opened_view E sp Lm p z t 0)) = zo_transcript (ver_open z' t) /\
   bytes_of n (oShare (opened_view E sp Lm p z t 0)) = bytes_of n (oShare (opened_view E sp Lm p z' t 1))).
Proof.
  intros W W' Ht H. rewrite !opened_commitment_string, !Hi_hash in H.
  destruct (list_eq_dec N.eq_dec (opened_string E sp Lm p z t 0) (opened_string E sp Lm p z' t 1)) as [Heq|Hne].
  2:{ left. left. split; [exact Hne|exact H]. }
  unfold opened_string in Heq. cbv zeta in Heq. cbn [Nat.eqb] in Heq.
  apply app_inj_len in Heq; [|rewrite !(Hi_len E sp HE); auto]. destruct Heq as [Hs Heq].
  apply app_inj_len in Heq; [|rewrite !bytes_of_len; auto]. destruct Heq as [H1 Heq].
  apply app_inj_len in Heq.
  2:{ rewrite bytes_of_len. symmetry. apply (proj2 W' t Ht). }
  destruct Heq as [H2 H4].
  destruct (list_eq_dec N.eq_dec (opened_seed z t 0) (opened_seed z' t 1)) as [Hss|Hss].
  - right. auto.
  - left. right. split; [exact Hss|]. rewrite !Hi_hash in Hs. exact Hs.
Qed.

Section Three.
Variable z : nat -> zsig.
Variable t : nat.
Hypothesis Hz : forall c, c < 3 -> zshape (z c).
Hypothesis Hstr : forall c, c < 3 -> zstring (z c) = zstring (z 0).
Hypothesis Ht : t < T.
Hypothesis He : forall c, c < 3 -> ver_e (z c) t = c.

Let salt := zs_salt (z 0).
Definition tk (c k : nat) : bytes :=
  let q := (c + k) mod 3 in skipn (tape_share_len sp q) (tape E sp (opened_seed (z c) t k) salt t q).
Definition view_of (c k : nat) : zview := opened_view E sp Lm p (z c) t k.

Lemma salts c : c < 3 -> zs_salt (z c) = salt.
Proof. intros Hc. apply (zstring_inj (z c) (z 0)); auto.  Qed.

Lemma fork_views c : c < 3 ->
  ver_views E P c (bytes_of n (iShare (view_of c 0))) (bytes_of n (iShare (view_of c 1))) (tk c 0) (tk c 1)
    (zo_transcript (ver_open (z c) t)) p
    (view_bytes P (view_of c 0))
    (mkView (bytes_of n (iShare (view_of c 1))) (zo_transcript (ver_open (z c) t)) (bytes_of n (oShare (view_of c 1)))).
Proof.
  intros Hc.
  pose proof (spec_ver_views E P sp HP1 CF c (opened_share E sp (z c) t)
    (fun j => tape_rand E sp (opened_seed (z c) t j) (zs_salt (z c)) t (opened_party (z c) t j)) (bit p)
    (bytes_of n (iShare (view_of c 0))) (bytes_of n (iShare (view_of c 1))) (tk c 0) (tk c 1)
    (zo_transcript (ver_open (z c) t)) p) as H.
  assert (Hn : stateSizeBits P = n) by apply (cf_n P sp CF). rewrite Hn in H. cbv zeta in H.
  assert (Hv : forall k, view_of c k = ver_view sp (lowmc_of E P) c (opened_share E sp (z c) t)
    (fun j => tape_rand E sp (opened_seed (z c) t j) (zs_salt (z c)) t (opened_party (z c) t j))
    (bit (zo_transcript (ver_open (z c) t))) (bit p) k).
  { intros k. unfold view_of, opened_view. rewrite He by auto. reflexivity. }
  rewrite <- !Hv in H. apply H.
  - rewrite Hv. reflexivity.
  - rewrite Hv. reflexivity.
  - intros g _. unfold tk, tape_rand, opened_party. rewrite He, salts by auto. rewrite bit_skipn. reflexivity.
  - intros g _. unfold tk, tape_rand, opened_party. rewrite He, salts by auto. rewrite bit_skipn. reflexivity.
  - intros i Hi. reflexivity.
Qed.

Lemma fork_commit j : j < 3 ->
  opened_commitment E sp Lm p (z j) t 0 = opened_commitment E sp Lm p (z ((j + 2) mod 3)) t 1.
Proof.
  intros Hj.
  assert (H : forall c, c < 3 -> ver_C E sp Lm p (z c) t j = ver_C E sp Lm p (z 0) t j).
  { intros c Hc. apply (zstring_inj (z c) (z 0)); auto. }
  assert (Hi3 : (j + 2) mod 3 < 3) by (apply Nat.mod_upper_bound; lia).
  pose proof (H j Hj) as H1. pose proof (H _ Hi3) as H2. rewrite <- H1 in H2. symmetry in H2.
  unfold ver_C, three in H2. rewrite !He in H2 by auto. unfold party_after in H2. rewrite Nat.eqb_refl in H2.
  destruct j as [|[|[|j]]]; [| | |lia]; exact H2.
Qed.

Lemma fork_out : forall i, i < n -> xorb (xorb (oShare (view_of 0 0) i) (oShare (view_of 0 1) i)) (bit C i) = oShare (view_of 2 0) i.
Proof.
  intros i Hi.
  assert (H : ver_out E sp Lm C p (z 0) t 2 = ver_out E sp Lm C p (z 2) t 2).
  { symmetry. apply (zstring_inj (z 2) (z 0)); auto; try (apply Hz; lia). }
  unfold ver_out, three in H. rewrite !He in H by lia. unfold party_after in H.
  change ((0 + 1) mod 3) with 1 in H. cbn [Nat.eqb] in H.
  pose proof (proj2 (proj2 (bytes_of_spec (sp_n sp) (vxor (vxor (oShare (opened_view E sp Lm p (z 0) t 0))
    (oShare (opened_view E sp Lm p (z 0) t 1))) (bit C)))) i) as B1.
  pose proof (proj2 (proj2 (bytes_of_spec (sp_n sp) (oShare (opened_view E sp Lm p (z 2) t 0)))) i) as B2.
  rewrite H in B1. rewrite B2 in B1. fold n in B1. replace (i <? n) with true in B1 by lia.
  unfold view_of. symmetry. exact B1.
Qed.

Lemma fork_key : 
  (exists j, j < 3 /\ let i := (j + 2) mod 3 in
     (collide E P HASH_PREFIX_0 (opened_string E sp Lm p (z j) t 0) (opened_string E sp Lm p (z i) t 1) \/
      collide E P HASH_PREFIX_4 (opened_seed (z j) t 0) (opened_seed (z i) t 1))) \/
  forall i, i < n -> bit C i = lowmc_enc (lowmc_of E P) (shares_sum E sp z t) (bit p) i.
Proof.
  pose proof (opened_binds (z 0) (z 2) t (Hz 0 ltac:(lia)) (Hz 2 ltac:(lia)) Ht (fork_commit 0 ltac:(lia))) as [H|B0].
  { left. exists 0. split; [lia|exact H]. }
  pose proof (opened_binds (z 1) (z 0) t (Hz 1 ltac:(lia)) (Hz 0 ltac:(lia)) Ht (fork_commit 1 ltac:(lia))) as [H|B1].
  { left. exists 1. split; [lia|exact H]. }
  pose proof (opened_binds (z 2) (z 1) t (Hz 2 ltac:(lia)) (Hz 1 ltac:(lia)) Ht (fork_commit 2 ltac:(lia))) as [H|B2].
  { left. exists 2. split; [lia|exact H]. }
  right.
  destruct B0 as (S0 & I0 & C0 & O0), B1 as (S1 & I1 & C1 & O1), B2 as (S2 & I2 & C2 & O2).
  pose proof (fork_views 0 ltac:(lia)) as V0. pose proof (fork_views 1 ltac:(lia)) as V1. pose proof (fork_views 2 ltac:(lia)) as V2.
  assert (T0 : tk 2 1 = tk 0 0) by (unfold tk; rewrite <- S0; reflexivity).
  assert (T1 : tk 0 1 = tk 1 0) by (unfold tk; rewrite <- S1; reflexivity).
  assert (T2 : tk 1 1 = tk 2 0) by (unfold tk; rewrite <- S2; reflexivity).
  unfold ver_views in V0, V1, V2. cbv zeta in V0, V1, V2.
  destruct V0 as (_ & _ & _ & _ & _ & _ & W0 & _ & G0), V1 as (_ & _ & _ & _ & _ & _ & W1 & _ & G1),
    V2 as (_ & _ & _ & _ & _ & _ & W2 & _ & G2).
  cbn [view_bytes v_communicatedBits v_outputShare] in W0, W1, W2, G0, G1, G2.
  assert (Hn : stateSizeBits P = n) by apply (cf_n P sp CF).
  rewrite (cf_r P sp CF), (cf_s P sp CF), ?Hn in W0, W1, W2, G0, G1, G2.
  unfold view_of in *.
  rewrite T1, <- I1, <- C1 in G0. rewrite T2, <- I2, <- C2 in G1. rewrite T0, <- I0, <- C0 in G2.
  cbn [Nat.eqb] in *.
  pose proof (gates3_correct (lowmc_of E P) (bit p) _ _ _ _ _ _ _ _ _ (wf_m P HP) G0 G1 G2) as Hg. cbv zeta in Hg.
  intros i Hi.
  assert (Hb : forall v, bit (bytes_of n v) i = v i).
  { intros v. rewrite (proj2 (proj2 (bytes_of_spec n v)) i), (proj2 (Nat.ltb_lt i n) Hi). reflexivity. }
  destruct W0 as (_ & _ & W0), W1 as (_ & _ & W1), W2 as (_ & _ & W2). specialize (W0 i). specialize (W1 i). specialize (W2 i).
  rewrite Hn, !Hb in W0, W1, W2. rewrite (proj2 (Nat.ltb_lt i n) Hi) in W0, W1, W2.
  change (lm_n (lowmc_of E P)) with (stateSizeBits P) in Hg. rewrite Hn in Hg. specialize (Hg i Hi).
  change (lm_r (lowmc_of E P)) with (numRounds P) in Hg. rewrite (cf_r P sp CF) in Hg.
  unfold vxor at 1 2 in Hg. rewrite <- W0, <- W1, <- W2 in Hg.
  pose proof (fork_out i Hi) as Ho. unfold view_of in Ho. rewrite <- Ho in Hg.
  assert (Ho1 : oShare (opened_view E sp Lm p (z 1) t 0) i = oShare (opened_view E sp Lm p (z 0) t 1) i).
  { rewrite <- (Hb (oShare (opened_view E sp Lm p (z 1) t 0))), <- (Hb (oShare (opened_view E sp Lm p (z 0) t 1))), O1. reflexivity. }
  rewrite Ho1 in Hg.
  transitivity (lowmc_enc (lowmc_of E P)
     (vxor (vxor (bit (bytes_of n (iShare (opened_view E sp Lm p (z 0) t 0)))) (bit (bytes_of n (iShare (opened_view E sp Lm p (z 1) t 0)))))
           (bit (bytes_of n (iShare (opened_view E sp Lm p (z 2) t 0))))) (bit p) i).
  - rewrite <- Hg. destruct (oShare _ i), (oShare (opened_view E sp Lm p (z 0) t 1) i), (bit C i); reflexivity.
  - apply (lowmc_enc_ext (lowmc_of E P)); try (change (lm_n (lowmc_of E P)) with (stateSizeBits P); rewrite ?Hn); auto.
    + rewrite <- Hn. apply (wf_m P HP).
    + intros q Hq. unfold vxor, shares_sum, vxor.
      assert (Hbq : forall v, bit (bytes_of n v) q = v q).
      { intros v. rewrite (proj2 (proj2 (bytes_of_spec n v)) q), (proj2 (Nat.ltb_lt q n) Hq). reflexivity. }
      rewrite !Hbq. reflexivity.
    + intros q Hq. reflexivity.
Qed.
End Three.
End Z.

(** ** The verifier's strings do not change when the hash of a long string starting with 1 does *)
Section Same.
Variable E : env.
Variable P : paramset.
Variable sp : sparams.
Hypothesis HE : env_bytes_ok E.
Variable X : bytes.
Variable h : bool -> nat -> bytes.
Let E' := reprogram E (1%N :: X) h.
Hypothesis HE' : env_bytes_ok E'.
Let Lm := spec_lowmc E P sp.
Let T := sp_T sp.
Let n := sp_n sp.
Let HB := octets (sp_H sp).
Let andB := octets (3 * sp_r sp * sp_s sp).
Hypothesis LX : HB + 32 + 6 + octets n + andB <= length X.

Lemma KDF_same x k : x <> 1%N :: X -> KDF E' sp x k = KDF E sp x k.
Proof.
  intros H. unfold KDF, E', reprogram. cbn [xof]. destruct (eqb_bytes x (1%N :: X)) eqn:Hb; [|reflexivity].
  apply eqb_bytes_eq in Hb. contradiction.
Qed.
Lemma Hi_same i x : i <> 1%N -> Hi E' sp i x = Hi E sp i x.
Proof. intros H. unfold Hi. apply KDF_same. intros Hx. injection Hx as Hx _. contradiction. Qed.

Lemma tape_same seed salt t j : length salt = 32 -> tape E' sp seed salt t j = tape E sp seed salt t j.
Proof.
  intros Hs. unfold tape. cbv zeta. rewrite (Hi_same 2) by discriminate. apply KDF_same.
  intros Hx. apply (f_equal (@length N)) in Hx. rewrite !app_length, (Hi_len E sp HE), Hs in Hx. cbn [length le16] in Hx.
  fold HB in Hx. lia.
Qed.

Section Zs.
Variable z : zsig.
Hypothesis W : zshape sp z.
Variables C p : bytes.

Lemma share_same t j l : opened_share E' sp z t j l = opened_share E sp z t j l.
Proof.
  unfold opened_share, tape_share. destruct (_ =? 2); [reflexivity|]. rewrite tape_same by apply W. reflexivity.
Qed.
Lemma rand_same t seed j l : tape_rand E' sp seed (zs_salt z) t j l = tape_rand E sp seed (zs_salt z) t j l.
Proof. unfold tape_rand. rewrite tape_same by apply W. reflexivity. Qed.

Lemma ver_state_same e x x' rnd rnd' tr q i : (forall j l, x' j l = x j l) -> (forall j l, rnd' j l = rnd j l) ->
  forall j l, ver_state sp Lm e x' rnd' tr q i j l = ver_state sp Lm e x rnd tr q i j l.
Proof.
  intros Hx Hr. induction i as [|i IH]; intros j l; cbn [ver_state]; cbv zeta.
  - unfold vxor. f_equal. apply matvec_ext. intros a _. apply Hx.
  - unfold mpc_round, vxor. f_equal; [f_equal|apply matvec_ext; intros a _; apply Hx].
    apply matvec_ext. intros a _. unfold mpc_sbox. rewrite !IH.
    assert (Hg : forall g, ver_gate sp rnd' tr (ver_state sp Lm e x' rnd' tr q i) i j g = ver_gate sp rnd tr (ver_state sp Lm e x rnd tr q i) i j g).
    { intros g. unfold ver_gate, mpc_and, and_left, and_right. destruct (j =? 0); [|reflexivity].
      rewrite !Hr. destruct (g mod 3) as [|[|k]]; rewrite !IH; reflexivity. }
    rewrite !Hg. reflexivity.
Qed.

Lemma view_same t k :
  let v' := opened_view E' sp Lm p z t k in let v := opened_view E sp Lm p z t k in
  (forall l, iShare v' l = iShare v l) /\ (forall l, transcript v' l = transcript v l) /\ forall l, oShare v' l = oShare v l.
Proof.
  cbv zeta. unfold opened_view, ver_view. cbn [iShare transcript oShare]. split; [intros l; apply share_same|].
  assert (Hs : forall i j l, ver_state sp Lm (ver_e z t) (opened_share E' sp z t)
     (fun j => tape_rand E' sp (opened_seed z t j) (zs_salt z) t (opened_party z t j)) (bit (zo_transcript (ver_open z t))) (bit p) i j l =
     ver_state sp Lm (ver_e z t) (opened_share E sp z t)
     (fun j => tape_rand E sp (opened_seed z t j) (zs_salt z) t (opened_party z t j)) (bit (zo_transcript (ver_open z t))) (bit p) i j l).
  { intros i j l. apply ver_state_same; [intros; apply share_same|]. intros. apply rand_same. }
  split; [|intros l; apply Hs].
  intros g. unfold ver_gate, mpc_and, and_left, and_right. destruct (k =? 0); [|reflexivity].
  rewrite !rand_same. destruct (_ mod 3) as [|[|q]]; rewrite !Hs; reflexivity.
Qed.

Lemma commitment_same t k : opened_commitment E' sp Lm p z t k = opened_commitment E sp Lm p z t k.
Proof.
  destruct (view_same t k) as (H1 & H2 & H3). unfold opened_commitment. cbv zeta.
  rewrite (Hi_same 0), (Hi_same 4) by discriminate. f_equal. f_equal.
  rewrite (bytes_of_ext (sp_n sp) (iShare (opened_view E' sp Lm p z t k)) (iShare (opened_view E sp Lm p z t k)) (fun l _ => H1 l)).
  rewrite (bytes_of_ext (sp_n sp) (oShare (opened_view E' sp Lm p z t k)) (oShare (opened_view E sp Lm p z t k)) (fun l _ => H3 l)).
  rewrite (bytes_of_ext (3 * sp_r sp * sp_s sp) (transcript (opened_view E' sp Lm p z t k)) (transcript (opened_view E sp Lm p z t k)) (fun l _ => H2 l)).
  reflexivity.
Qed.

Lemma G_same t k : t < T -> opened_G E' sp Lm p z t k = opened_G E sp Lm p z t k.
Proof.
  intros Ht. destruct (view_same t k) as (H1 & H2 & _). unfold opened_G. cbv zeta. rewrite (Hi_same 5) by discriminate.
  rewrite (bytes_of_ext (sp_n sp) (iShare (opened_view E' sp Lm p z t k)) (iShare (opened_view E sp Lm p z t k)) (fun l _ => H1 l)).
  rewrite (bytes_of_ext (3 * sp_r sp * sp_s sp) (transcript (opened_view E' sp Lm p z t k)) (transcript (opened_view E sp Lm p z t k)) (fun l _ => H2 l)).
  apply KDF_same. intros Hx. apply (f_equal (@length N)) in Hx. rewrite !app_length, (Hi_len E sp HE) in Hx. cbn [length le16] in Hx.
  assert (A : length (if opened_party z t k =? 2 then bytes_of (sp_n sp) (iShare (opened_view E sp Lm p z t k)) else []) <= octets n).
  { destruct (_ =? 2); [rewrite bytes_of_len; apply le_n|cbn [length]; lia]. }
  assert (B : length (if k =? 0 then bytes_of (3 * sp_r sp * sp_s sp) (transcript (opened_view E sp Lm p z t k)) else zo_transcript (ver_open z t)) = andB).
  { destruct (k =? 0); [apply bytes_of_len|]. apply (proj2 W t Ht). }
  rewrite B in Hx. fold HB in Hx. lia.
Qed.

Lemma zstring_same M : zstring E' P sp C p M z = zstring E P sp C p M z.
Proof.
  unfold zstring. change (spec_lowmc E' P sp) with Lm. fold Lm. unfold challenge_string, all_parties.
  assert (Hv : forall t k, oShare (opened_view E' sp Lm p z t k) = oShare (opened_view E' sp Lm p z t k)) by reflexivity.
  assert (Ho : forall t j, ver_out E' sp Lm C p z t j = ver_out E sp Lm C p z t j).
  { intros t j. unfold ver_out. destruct (view_same t 0) as (_ & _ & A). destruct (view_same t 1) as (_ & _ & B).
    unfold three. destruct (j =? _); [|destruct (j =? _)]; apply bytes_of_ext; intros l _; unfold vxor; rewrite ?A, ?B; reflexivity. }
  assert (Hc : forall t j, ver_C E' sp Lm p z t j = ver_C E sp Lm p z t j).
  { intros t j. unfold ver_C. rewrite !commitment_same. reflexivity. }
  assert (Hg : forall t j, t < T -> ver_G E' sp Lm p z t j = ver_G E sp Lm p z t j).
  { intros t j Ht. unfold ver_G. rewrite !G_same by auto. reflexivity. }
  f_equal; [apply flat_map_ext; intros t; rewrite !Ho; reflexivity|].
  f_equal; [apply flat_map_ext; intros t; rewrite !Hc; reflexivity|]. f_equal.
  destruct (sp_UR sp); [|reflexivity].
  assert (Hin : forall l, (forall t, In t l -> t < T) ->
    flat_map (fun t => ver_G E' sp Lm p z t 0 ++ ver_G E' sp Lm p z t 1 ++ ver_G E' sp Lm p z t 2) l =
    flat_map (fun t => ver_G E sp Lm p z t 0 ++ ver_G E sp Lm p z t 1 ++ ver_G E sp Lm p z t 2) l).
  { induction l as [|a l IH]; intros Hl; [reflexivity|]. cbn [flat_map]. rewrite !Hg by (apply Hl; left; auto).
    rewrite IH; [reflexivity|]. intros t Hti. apply Hl. right. auto. }
  apply Hin. intros t Hti. apply in_seq in Hti. fold T in Hti. lia.
Qed.
End Zs.
End Same.

Lemma zstring_length E P sp C p M z : env_bytes_ok E -> zshape sp z ->
  3 * octets (sp_H sp) * sp_T sp <= length (zstring E P sp C p M z).
Proof.
  intros HE W. unfold zstring, challenge_string, all_parties. rewrite !app_length.
  assert (H : forall l, (forall t, In t l -> t < sp_T sp) -> length (flat_map (fun t => ver_C E sp (spec_lowmc E P sp) p z t 0 ++
     ver_C E sp (spec_lowmc E P sp) p z t 1 ++ ver_C E sp (spec_lowmc E P sp) p z t 2) l) = 3 * octets (sp_H sp) * length l).
  { induction l as [|a l IH]; intros Hl; [cbn; lia|]. cbn [flat_map length]. rewrite !app_length, IH by (intros; apply Hl; right; auto).
    rewrite !(zC_len E P sp HE p z) by (auto; apply Hl; left; auto). lia. }
  rewrite H by (intros t Ht; apply in_seq in Ht; lia). rewrite seq_length. lia.
Qed.

Definition long_b (P : paramset) : bool :=
  digestSizeBytes P + 32 + 6 + stateSizeBytes P + andSizeBytes P <=? 3 * digestSizeBytes P * numMPCRounds P.
Lemma long_strings p P sp : get_param_set p = Some P -> is_picnic3 p = false -> conforms P sp ->
  octets (sp_H sp) + 32 + 6 + octets (sp_n sp) + octets (3 * sp_r sp * sp_s sp) <= 3 * octets (sp_H sp) * sp_T sp.
Proof.
  intros HP H3 CF.
  assert (H : is_picnic3 p || long_b P = true).
  { revert p P HP H3 CF. intros p P HP _ _. revert p P HP.
    apply (params_forall (fun p P => is_picnic3 p || long_b P)). vm_compute. reflexivity. }
  rewrite H3 in H. cbn [orb] in H. unfold long_b in H. apply Nat.leb_le in H.
  rewrite (cf_H P sp CF), (cf_nB P sp CF), (cf_aB P sp CF), (cf_T P sp CF) in H. exact H.
Qed.

Lemma C53_pf E P p sp fuel pk msg sg h X t :
  get_param_set p = Some P -> is_picnic3 p = false -> table2 p = Some sp -> env_bytes_ok E -> constants_ok E P ->
  pk_params pk = p -> pk_wf pk -> padding_zero P (pk_ciphertext pk) ->
  let Ec c := reprogram E (1%N :: X) (h c) in
  (forall c, c < 3 -> env_bytes_ok (Ec c)) -> (forall c, c < 3 -> bytes_ok (sg c)) ->
  (forall c, c < 3 -> picnic_verify (Ec c) fuel pk msg (sg c) = Ok true) ->
  (forall c, c < 3 -> zkb_string (Ec c) P sp (pk_ciphertext pk) (pk_plaintext pk) msg (sg c) = X) ->
  t < sp_T sp -> (forall c, c < 3 -> encoded_trit (sg c) t = c) ->
  exists z, (forall c, c < 3 -> zkbpp_parse sp (sg c) = Some (z c)) /\
  ((exists j, j < 3 /\ let i := (j + 2) mod 3 in
      (let str := opened_string E sp (spec_lowmc E P sp) (block P (pk_plaintext pk)) in
       collide E P HASH_PREFIX_0 (str (z j) t 0) (str (z i) t 1) \/
       collide E P HASH_PREFIX_4 (opened_seed (z j) t 0) (opened_seed (z i) t 1))) \/
   (forall key, (forall i, i < stateSizeBits P -> bit key i = shares_sum E sp z t i) ->
    lowmc_relation E P key (pk_plaintext pk) (pk_ciphertext pk))).
Proof.
  intros HP H3 Htab HE HC Hp W Hpad Ec HEc Hsg Hv HX Ht He.
  pose proof (get_param_set_wfP1 _ _ HP H3) as HP1.
  destruct (table2_conforms p P HP) as (sp' & Htab' & CF). assert (sp' = sp) as -> by congruence.
  assert (Hz : forall c, c < 3 -> exists z, zkbpp_parse sp (sg c) = Some z).
  { intros c Hc. assert (HCc : constants_ok (Ec c) P) by exact HC.
    destruct (picnic_verify_is (Ec c) p P sp fuel pk msg (sg c) HP Hp H3 Htab (HEc c Hc) HCc W Hpad (Hsg c Hc)) as [H|[H _]];
      [|rewrite (Hv c Hc) in H; discriminate].
    rewrite (Hv c Hc) in H. unfold zkbpp_verify in H. destruct (zkbpp_parse sp (sg c)) as [z|]; [eauto|discriminate]. }
  set (z := fun c => match zkbpp_parse sp (sg c) with Some z => z | None => mkZsig [] [] [] end).
  assert (Hzz : forall c, c < 3 -> zkbpp_parse sp (sg c) = Some (z c)).
  { intros c Hc. unfold z. destruct (Hz c Hc) as [y ->]. reflexivity. }
  clearbody z. clear Hz. exists z. split; [exact Hzz|].
  assert (Hsh : forall c, c < 3 -> zshape sp (z c)) by (intros c Hc; exact (parse_shape sp (sg c) (z c) (Hzz c Hc))).
  assert (Hstr : forall c, c < 3 -> zstring E P sp (block P (pk_ciphertext pk)) (block P (pk_plaintext pk)) msg (z c) = X).
  { intros c Hc. specialize (HX c Hc). unfold zkb_string in HX. rewrite (Hzz c Hc) in HX. cbv zeta in HX.
    change (zstring (Ec c) P sp (block P (pk_ciphertext pk)) (block P (pk_plaintext pk)) msg (z c) = X) in HX.
    assert (LX : octets (sp_H sp) + 32 + 6 + octets (sp_n sp) + octets (3 * sp_r sp * sp_s sp) <= length X).
    { etransitivity; [exact (long_strings p P sp HP H3 CF)|]. rewrite <- HX. apply zstring_length; [apply HEc; auto|auto]. }
    transitivity (zstring (Ec c) P sp (block P (pk_ciphertext pk)) (block P (pk_plaintext pk)) msg (z c)); [|exact HX].
    symmetry. apply (zstring_same E P sp HE X (h c) LX (z c) (Hsh c Hc)). }
  assert (Hee : forall c, c < 3 -> ver_e (z c) t = c).
  { intros c Hc. rewrite <- (He c Hc) at 2. unfold ver_e. destruct (parse_e sp (sg c) (z c) (Hzz c Hc)) as [-> _].
    apply trit_firstn. unfold octets. pose proof (Nat.div_mod (2 * sp_T sp + 7) 8 ltac:(lia)).
    pose proof (Nat.mod_upper_bound (2 * sp_T sp + 7) 8 ltac:(lia)). lia. }
  destruct (fork_key E P sp HP1 CF HE (block P (pk_ciphertext pk)) (block P (pk_plaintext pk)) msg z t Hsh
    (fun c Hc => eq_trans (Hstr c Hc) (eq_sym (Hstr 0 ltac:(lia)))) Ht Hee) as [H|H]; [left; exact H|right].
  intros key Hk. split; [|exact Hpad]. intros i Hi. rewrite (cf_n P sp CF) in Hi.
  pose proof (w1_wfP P HP1) as Hw.
  assert (Hb : forall b q, q < sp_n sp -> bit (block P b) q = bit b q).
  { intros b q Hq. unfold block. apply bit_firstn. rewrite (wf_sB P Hw), (cf_n P sp CF). pose proof (numBytes_spec (sp_n sp)). lia. }
  rewrite <- (Hb _ i Hi), (H i Hi). apply (lowmc_enc_ext (lowmc_of E P)).
  - apply (wf_m P Hw).
  - intros q Hq. symmetry. apply Hk. exact Hq.
  - intros q Hq. apply Hb. rewrite <- (cf_n P sp CF). exact Hq.
  - rewrite <- (cf_n P sp CF) in Hi. exact Hi.
Qed.
