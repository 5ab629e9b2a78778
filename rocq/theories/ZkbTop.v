(** ZKB++ signing and verification as functions of the hash, the keys and the message. *)

From Coq Require Import List NArith Arith Bool Lia ZifyBool ZifyNat ZifyN.
From Verif Require Import Base Params Env Spec LowMC Picnic1 Api ApiSpec BaseFacts ParamFacts ApiFacts
  LowMCFacts LowMCInj Hint ZkbMpc Zkb SigSpec ZkbRound ZkbSign ZkbChal ZkbCodec.
Import ListNotations.

Section Top.
Variable E : env.
Variable P : paramset.

Let T := numMPCRounds P.
Let n := stateSizeBits P.
Let sB := stateSizeBytes P.
Let W := stateSizeWords P.
Let kB := seedSizeBytes P.

(** The data the verifier hashes. *)
Definition ver_input (cb salt : bytes) (os : nat -> opening) (pub pt msg : bytes) : bytes :=
  chal_input P
    (fun k j => vr_out E P (chalv cb k) (os k) salt k pub pt j)
    (fun k j => vr_commit E P (chalv cb k) (os k) salt k pt j)
    (fun k j => vr_g E P (chalv cb k) (os k) salt k pt j) pub pt salt msg.

(** All seeds and the salt of a signature. *)
Definition all_seeds (sk pub pt msg : bytes) : bytes :=
  hash E P HASH_PREFIX_NONE [firstn sB sk; msg; firstn sB pub; firstn sB pt; intLE n]
       (kB * (3 * T) + saltSizeBytes P).
Definition seed_of (sk pub pt msg : bytes) (k j : nat) : bytes :=
  firstn kB (skipn ((3 * k + j) * kB) (all_seeds sk pub pt msg)).
Definition sig_salt (sk pub pt msg : bytes) : bytes :=
  firstn (saltSizeBytes P) (skipn (T * 3 * kB) (all_seeds sk pub pt msg)).

(** The data the signer hashes. *)
Definition sign_input (sk pub pt msg : bytes) : bytes :=
  let s := seed_of sk pub pt msg in
  let salt := sig_salt sk pub pt msg in
  chal_input P
    (fun k j => sr_out E P (s k) salt k sk pt j)
    (fun k j => sr_commit E P (s k) salt k sk pt j)
    (fun k j => sr_g E P (s k) salt k sk pt j) pub pt salt msg.

Definition sign_opening (sk pub pt msg : bytes) (cb : bytes) (k : nat) : opening :=
  sr_opening E P (seed_of sk pub pt msg k) (sig_salt sk pub pt msg) k sk pt (chalv cb k).

Hypothesis HP1 : wfP1 P.
Let HP : wfP P := w1_wfP P HP1.
Hypothesis HE : env_bytes_ok E.
Hypothesis HC : constants_ok E P.

Definition arr (b : bytes) : Prop := length b = 32 /\ bytes_ok b.

Lemma arr_len b : arr b -> sB <= length b /\ 4 * W <= length b.
Proof.
  intros [Hl _]. pose proof (wf_W2 P HP). pose proof (wf_W3 P HP).
  pose proof (wfP_block P HP). unfold sB, W. lia.
Qed.

Lemma verify_eq fuel s cb salt os pub pt msg :
  sig_wf P cb salt os -> sig_is P s cb salt os -> arr pub -> arr pt ->
  verify E P fuel s pub pt msg =
  match trits E P fuel (chal_hash E P (ver_input cb salt os pub pt msg)) T with
  | None => NoFuel
  | Some ts => Ok (eqb_bytes cb (chal_of P ts))
  end.
Proof.
  intros (W1 & W2 & W3) (S1 & S2 & S3 & S4) Hpub Hpt.
  destruct (arr_len _ Hpub) as [Hpub1 Hpub2]. destruct (arr_len _ Hpt) as [Hpt1 Hpt2].
  unfold verify. fold T. rewrite S1, S2.
  set (Q := fun k (r : tri bytes * tri bytes * tri bytes) => let '(vo, cm, gs) := r in
    (forall j, j < 3 -> tget vo j = vr_out E P (chalv cb k) (os k) salt k pub pt j) /\
    (forall j, j < 3 -> tget cm j = vr_commit E P (chalv cb k) (os k) salt k pt j) /\
    (is_UR (transf P) = true -> forall j, j < 3 ->
       G_len P j <= length (tget gs j) /\
       firstn (G_len P j) (tget gs j) = vr_g E P (chalv cb k) (os k) salt k pt j)).
  assert (Hr : ok (mapM_seq T 0 (fun i => pr <- rd (s_proofs s) i ;;
                        verify_round E P i pr cb salt pub pt))
     (fun l => length l = T /\ forall k x, nth_error l k = Some x -> Q (0 + k) x)).
  { apply ok_mapM_seq. intros k Hk.
    destruct (nth_error (s_proofs s) k) as [pr|] eqn:Hp.
    2:{ apply nth_error_None in Hp. lia. }
    rewrite (rd_some _ _ _ Hp). cbn [bind]. destruct (W3 k ltac:(lia)) as [Hc Ho].
    eapply ok_mono; [eapply (verify_round_spec E P HP1 HE HC k pr (os k) cb (chalv cb k)); auto|].
    - apply getChallenge_ok. apply (chal_bound P); auto. lia.
    - apply Hpt.
    - intros [[vo cm] gs] H. exact H. }
  destruct (mapM_seq T 0 _) as [l| | |]; cbn [ok] in Hr; try contradiction.
  destruct Hr as [Hl Hq]. cbn [bind].
  pose proof (H3_spec E P HP1 fuel pub pt
    (map (fun '(vo, _, _) => vo) l) (map (fun '(_, cm, _) => cm) l) (map (fun '(_, _, g) => g) l)
    (uninit E site_computed_challengebits 0 (numBytes (2 * T))) salt msg
    (fun k j => vr_out E P (chalv cb k) (os k) salt k pub pt j)
    (fun k j => vr_commit E P (chalv cb k) (os k) salt k pt j)
    (fun k j => vr_g E P (chalv cb k) (os k) salt k pt j)) as H3.
  assert (Hvl : forall k j, k < T -> j < 3 ->
    length (vr_out E P (chalv cb k) (os k) salt k pub pt j) = sB /\
    length (vr_commit E P (chalv cb k) (os k) salt k pt j) = digestSizeBytes P).
  { intros k j Hk Hj. destruct (W3 k Hk) as [Hc Ho].
    pose proof (vr_views_spec E P HP1 HE HC _ _ salt k pt Hc Ho Hpt2 (proj2 Hpt)) as Hv.
    unfold vr_out, vr_commit. destruct (vr_views E P (chalv cb k) (os k) salt k pt) as [w1 w2].
    cbn [fst snd] in Hv. destruct Hv as (_ & _ & _ & _ & _ & _ & (O1 & _) & (O2 & _) & _).
    fold sB in O1, O2.
    assert (Hx : length (lxor_list (lxor_list (v_outputShare w1) (v_outputShare w2)) (firstn sB pub)) = sB).
    { rewrite !length_lxor_list; rewrite ?length_lxor_list, ?firstn_length; lia. }
    unfold by_party. destruct Ho as (_ & _ & _ & _ & Hc3 & _).
    destruct (j =? chalv cb k); [|destruct (j =? nxt (chalv cb k))]; split; auto;
      apply hash_len; auto. }
  specialize (H3 ltac:(split; [rewrite map_length; auto|]; intros k t Ht j Hj;
    rewrite nth_error_map in Ht; destruct (nth_error l k) as [[[vo cm] gs]|] eqn:Hn;
      [|discriminate]; cbn in Ht; injection Ht as <-;
    assert (Hk : k < T) by (rewrite <- Hl; apply nth_error_Some; congruence);
    destruct (Hvl k j Hk Hj) as [A B];
    destruct (Hq k _ Hn) as (Q1 & Q2 & Q3); rewrite Q1 by auto;
    cbn [Nat.add]; fold sB; rewrite A; split; [lia|]; apply firstn_all2; lia)).
  specialize (H3 ltac:(split; [rewrite map_length; auto|]; intros k t Ht j Hj;
    rewrite nth_error_map in Ht; destruct (nth_error l k) as [[[vo cm] gs]|] eqn:Hn;
      [|discriminate]; cbn in Ht; injection Ht as <-;
    assert (Hk : k < T) by (rewrite <- Hl; apply nth_error_Some; congruence);
    destruct (Hvl k j Hk Hj) as [A B];
    destruct (Hq k _ Hn) as (Q1 & Q2 & Q3); rewrite Q2 by auto;
    cbn [Nat.add]; rewrite B; split; [lia|]; apply firstn_all2; lia)).
  specialize (H3 ltac:(intros Hur; split; [rewrite map_length; auto|]; intros k t Ht j Hj;
    rewrite nth_error_map in Ht; destruct (nth_error l k) as [[[vo cm] gs]|] eqn:Hn;
      [|discriminate]; cbn in Ht; injection Ht as <-;
    destruct (Hq k _ Hn) as (Q1 & Q2 & Q3); apply (Q3 Hur j Hj))).
  specialize (H3 Hpub1 Hpt1 W2 ltac:(apply uninit_len; auto) ltac:(apply HE)).
  fold T in H3. fold (ver_input cb salt os pub pt msg) in H3.
  destruct (trits E P fuel _ T) as [ts|].
  - destruct H3 as (_ & _ & ->). cbn [bind].
    destruct (chal_of_spec P ts) as (Hcl & _). fold T in Hcl, W1.
    rewrite memcmp_ok by lia. rewrite !firstn_all2 by lia. reflexivity.
  - rewrite H3. reflexivity.
Qed.

Lemma length_all_seeds sk pub pt msg :
  length (all_seeds sk pub pt msg) = kB * (3 * T) + saltSizeBytes P.
Proof. apply hash_len; auto. Qed.

Lemma length_seed_of sk pub pt msg k j : k < T -> j < 3 -> length (seed_of sk pub pt msg k j) = kB.
Proof.
  intros Hk Hj. unfold seed_of. rewrite firstn_length, skipn_length, length_all_seeds. nia.
Qed.

Lemma length_sig_salt sk pub pt msg : length (sig_salt sk pub pt msg) = saltSizeBytes P.
Proof. unfold sig_salt. rewrite firstn_length, skipn_length, length_all_seeds. nia. Qed.

Lemma sign_rounds_spec sk pub pt msg m : forall i,
  i + m <= T -> arr sk -> arr pub -> arr pt ->
  ok (sign_rounds E P m i (all_seeds sk pub pt msg) (sig_salt sk pub pt msg) sk pub pt) (fun r =>
    match r with
    | None => ~ lowmc_relation E P sk pt pub
    | Some l =>
        (0 < m -> lowmc_relation E P sk pt pub) /\ length l = m /\
        forall k rd, nth_error l k = Some rd ->
          round_is E P (seed_of sk pub pt msg (i + k)) (sig_salt sk pub pt msg) (i + k) sk pt rd
    end).
Proof.
  induction m as [|m IH]; intros i Hi Hsk Hpub Hpt; cbn [sign_rounds].
  - cbn [ok]. split; [lia|]. split; auto. intros [|k] rd; discriminate.
  - destruct (arr_len _ Hpub) as [Hpub1 Hpub2]. destruct (arr_len _ Hpt) as [Hpt1 Hpt2].
    destruct (arr_len _ Hsk) as [Hsk1 Hsk2].
    eapply ok_step.
    { apply (sign_round_spec E P HP1 HE HC i _ (seed_of sk pub pt msg i)); auto;
        try apply Hsk; try apply Hpub; try apply Hpt.
      - intros j Hj. split; [|apply length_seed_of; auto; lia].
        unfold seed_at. rewrite (w1_N P HP1). fold kB. apply slice_ok.
        rewrite length_all_seeds. nia.
      - apply length_sig_salt. }
    intros [rd|] Hr; cbv beta iota in Hr; [|exact Hr].
    destruct Hr as [Hrel Hrd].
    eapply ok_step; [apply (IH (S i)); auto; lia|].
    intros [l|] Hl; cbv beta iota in Hl; cbn [ok]; [|contradiction].
    destruct Hl as (_ & Hl & Hk). split; [auto|]. split; [cbn [length]; lia|].
    intros [|k] rd' Hn; cbn [nth_error] in Hn.
    + injection Hn as <-. rewrite Nat.add_0_r. auto.
    + rewrite <- Nat.add_succ_comm. apply Hk; auto.
Qed.

Lemma sign_opening_wf sk pub pt msg cb k :
  arr sk -> arr pub -> arr pt -> k < T -> chalv cb k < 3 ->
  opening_wf P (chalv cb k) (sign_opening sk pub pt msg cb k).
Proof.
  intros Hsk Hpub Hpt Hk Hc.
  destruct (arr_len _ Hpt) as [Hpt1 Hpt2]. destruct (arr_len _ Hsk) as [Hsk1 Hsk2].
  apply sr_opening_wf; auto; try apply Hsk; try apply Hpt.
  intros j Hj. apply length_seed_of; auto.
Qed.

Lemma sign_picnic1_spec fuel sk pub pt msg :
  arr sk -> arr pub -> arr pt ->
  match sign_picnic1 E P fuel sk pub pt msg with
  | Ok None => ~ lowmc_relation E P sk pt pub
  | Ok (Some s) =>
      lowmc_relation E P sk pt pub /\
      exists ts, trits E P fuel (chal_hash E P (sign_input sk pub pt msg)) T = Some ts /\
        length ts = T /\ Forall (fun t => (t < 3)%N) ts /\
        sig_wf P (chal_of P ts) (sig_salt sk pub pt msg) (sign_opening sk pub pt msg (chal_of P ts)) /\
        sig_is P s (chal_of P ts) (sig_salt sk pub pt msg) (sign_opening sk pub pt msg (chal_of P ts))
  | NoFuel => lowmc_relation E P sk pt pub /\
              trits E P fuel (chal_hash E P (sign_input sk pub pt msg)) T = None
  | _ => False
  end.
Proof.
  intros Hsk Hpub Hpt.
  destruct (arr_len _ Hpub) as [Hpub1 Hpub2]. destruct (arr_len _ Hpt) as [Hpt1 Hpt2].
  destruct (arr_len _ Hsk) as [Hsk1 Hsk2].
  pose proof (w1_T P HP1) as HT. fold T in HT.
  unfold sign_picnic1, computeSeeds. fold T.
  rewrite !slice0_ok by auto. cbn [bind]. rewrite (w1_N P HP1). fold T.
  change (hash E P HASH_PREFIX_NONE _ _) with (all_seeds sk pub pt msg).
  unfold salt_of. fold T kB. rewrite (w1_N P HP1).
  rewrite slice_ok by (rewrite length_all_seeds; nia). cbn [bind].
  fold (sig_salt sk pub pt msg).
  pose proof (sign_rounds_spec sk pub pt msg T 0 ltac:(lia) Hsk Hpub Hpt) as Hr.
  destruct (sign_rounds E P T 0 _ _ sk pub pt) as [[l|]| | |]; cbn [ok] in Hr; try contradiction.
  2:{ cbn [bind]. exact Hr. }
  cbn [bind]. destruct Hr as (Hrel & Hl & Hk). specialize (Hrel HT). cbn [Nat.add] in Hk.
  set (s := seed_of sk pub pt msg) in *. set (salt := sig_salt sk pub pt msg) in *.
  assert (Hsl : forall k j, k < T -> j < 3 -> length (s k j) = seedSizeBytes P)
    by (intros; apply length_seed_of; auto).
  pose proof (H3_spec E P HP1 fuel pub pt
    (map (fun r => (v_outputShare (tget (r_views r) 0), v_outputShare (tget (r_views r) 1),
                    v_outputShare (tget (r_views r) 2))) l)
    (map r_commits l) (map r_gs l) (uninit E site_challengeBits 0 (numBytes (2 * T))) salt msg
    (fun k j => sr_out E P (s k) salt k sk pt j)
    (fun k j => sr_commit E P (s k) salt k sk pt j)
    (fun k j => sr_g E P (s k) salt k sk pt j)) as H3.
  specialize (H3 ltac:(split; [rewrite map_length; auto|]; intros k t Ht j Hj;
    rewrite nth_error_map in Ht; destruct (nth_error l k) as [rd|] eqn:Hn;
      [|discriminate]; cbn in Ht; injection Ht as <-;
    destruct (Hk k _ Hn) as (_ & Rv & _ & _);
    destruct (sr_out_share E P HP1 HE HC (s k) salt k sk pt j Hsk1 (proj2 Hsk) Hpt2 (proj2 Hpt) Hj) as [[A _] _];
    rewrite Rv;
    replace (tget (v_outputShare (tget (sr_views E P (s k) salt k sk pt) 0),
      v_outputShare (tget (sr_views E P (s k) salt k sk pt) 1),
      v_outputShare (tget (sr_views E P (s k) salt k sk pt) 2)) j) with (sr_out E P (s k) salt k sk pt j)
      by (destruct (lt3 j Hj) as [-> | [-> | ->]]; reflexivity);
    split; [rewrite A; auto|apply firstn_all2; rewrite A; auto])).
  specialize (H3 ltac:(split; [rewrite map_length; auto|]; intros k t Ht j Hj;
    rewrite nth_error_map in Ht; destruct (nth_error l k) as [rd|] eqn:Hn;
      [|discriminate]; cbn in Ht; injection Ht as <-;
    destruct (Hk k _ Hn) as (_ & _ & Rc & _); rewrite Rc by auto;
    assert (A : length (sr_commit E P (s k) salt k sk pt j) = digestSizeBytes P) by (apply hash_len; auto);
    split; [rewrite A; auto|apply firstn_all2; rewrite A; auto])).
  specialize (H3 ltac:(intros Hur; split; [rewrite map_length; auto|]; intros k t Ht j Hj;
    rewrite nth_error_map in Ht; destruct (nth_error l k) as [rd|] eqn:Hn;
      [|discriminate]; cbn in Ht; injection Ht as <-;
    destruct (Hk k _ Hn) as (_ & _ & _ & Rg); apply (Rg Hur j Hj))).
  specialize (H3 Hpub1 Hpt1 ltac:(apply length_sig_salt) ltac:(apply uninit_len; auto) ltac:(apply HE)).
  fold T in H3. change (chal_input P _ _ _ pub pt salt msg) with (sign_input sk pub pt msg) in H3.
  destruct (trits E P fuel _ T) as [ts|].
  2:{ rewrite H3. cbn [bind]. auto. }
  destruct H3 as (Htl & Htf & H3). rewrite H3. cbn [bind]. clear H3.
  set (cb := chal_of P ts).
  assert (Hcb : length cb = numBytes (2 * T)) by apply chal_of_spec.
  assert (Hc3 : forall k, k < T -> chalv cb k < 3) by (intros k Hk'; apply (chalv_chal_of P ts k); auto).
  assert (Hp : ok (mapM_seq T 0
                  (fun i =>
                     r <- rd l i ;;
                     c <- getChallenge cb i ;;
                     prove P (allocateProof E P site_proof i) c (r_seeds r) (r_views r)
                           (r_commits r) (r_gs r)))
     (fun prs => length prs = T /\ forall k pr, nth_error prs k = Some pr ->
        proof_is P (chalv cb (0 + k)) pr (sign_opening sk pub pt msg cb (0 + k)))).
  { apply (ok_mapM_seq (fun k pr => proof_is P (chalv cb k) pr (sign_opening sk pub pt msg cb k))).
    intros k Hk'. destruct (nth_error l k) as [rd|] eqn:Hn.
    2:{ apply nth_error_None in Hn. lia. }
    rewrite (rd_some _ _ _ Hn). cbn [bind].
    rewrite getChallenge_ok by (apply (chal_bound P); auto; lia). cbn [bind].
    apply prove_spec; auto; try apply Hsk; try apply Hpt; try (apply uninit_len; auto).
    - intros j Hj. apply Hsl; auto. lia.
    - apply Hc3. lia. }
  destruct (mapM_seq T 0 _) as [prs| | |]; cbn [ok] in Hp; try contradiction. cbn [bind].
  destruct Hp as [Hpl Hpk]. split; [auto|]. exists ts. split; [auto|]. split; [auto|]. split; [auto|].
  fold cb. split.
  - split; [auto|]. split; [apply length_sig_salt|]. intros k Hk'. split; [auto|].
    apply sign_opening_wf; auto.
  - split; [reflexivity|]. split; [reflexivity|]. split; auto.
Qed.

(** The signer's openings make the verifier hash the signer's data. *)
Lemma ver_sign_input sk pub pt msg cb :
  arr sk -> arr pub -> arr pt -> padding_zero P sk -> lowmc_relation E P sk pt pub ->
  (forall k, k < T -> chalv cb k < 3) ->
  ver_input cb (sig_salt sk pub pt msg) (sign_opening sk pub pt msg cb) pub pt msg =
  sign_input sk pub pt msg.
Proof.
  intros Hsk Hpub Hpt Hpad Hrel Hc.
  destruct (arr_len _ Hpub) as [Hpub1 Hpub2]. destruct (arr_len _ Hpt) as [Hpt1 Hpt2].
  destruct (arr_len _ Hsk) as [Hsk1 Hsk2].
  unfold ver_input, sign_input. cbv zeta.
  assert (H : forall k j, k < T -> j < 3 -> _) by
    exact (fun k j Hk Hj => vr_sr E P HP1 HE HC (seed_of sk pub pt msg k) (sig_salt sk pub pt msg) k
      sk pub pt (chalv cb k) j (fun j Hj => length_seed_of sk pub pt msg k j Hk Hj)
      Hsk1 (proj2 Hsk) Hpad Hpt2 (proj2 Hpt) Hpub1 (proj2 Hpub) Hrel (Hc k Hk) Hj).
  cbv zeta in H.
  apply chal_input_ext; auto; intros; apply H; auto.
Qed.

(** The input shares the signer writes have zero padding bits. *)
Lemma sign_pad_ok sk pub pt msg cb :
  arr sk -> padding_zero P sk -> pad_ok P cb (sign_opening sk pub pt msg cb).
Proof.
  intros Hsk Hpad k Hk Hc i Hi. destruct (arr_len _ Hsk) as [Hsk1 Hsk2].
  unfold sign_opening, sr_opening. cbn [o_in].
  set (s := seed_of sk pub pt msg k). set (salt := sig_salt sk pub pt msg).
  pose proof (sr_in_wf E P HP1 HE s salt k sk 0 Hsk1 (proj2 Hsk) ltac:(lia)) as I0.
  pose proof (sr_in_wf E P HP1 HE s salt k sk 1 Hsk1 (proj2 Hsk) ltac:(lia)) as I1.
  change (sr_in E P s salt k sk 2) with
    (lxor_list (lxor_list (firstn sB sk) (sr_in E P s salt k sk 0)) (sr_in E P s salt k sk 1)).
  rewrite (bit_lxor3 P) by (auto; apply firstn_wf; auto; apply Hsk).
  destruct (party_in_wf E P HP1 HE (s 0) salt k 0 ltac:(lia)) as (_ & _ & Z0).
  destruct (party_in_wf E P HP1 HE (s 1) salt k 1 ltac:(lia)) as (_ & _ & Z1).
  change (sr_in E P s salt k sk 0) with (party_in E P (s 0) salt k 0).
  change (sr_in E P s salt k sk 1) with (party_in E P (s 1) salt k 1).
  rewrite Z0, Z1 by apply Hi. rewrite bit_firstn by apply Hi. rewrite Hpad by exact Hi. reflexivity.
Qed.

End Top.
