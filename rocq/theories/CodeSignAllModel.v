(** What ZKB++ signing returns, for keys and plaintext of any sufficient length. *)

From Coq Require Import List NArith Arith Bool Lia ZifyBool ZifyNat ZifyN.
From Verif Require Import Base Params Env Spec LowMC Picnic1 ApiSpec BaseFacts ParamFacts ApiFacts
  LowMCFacts ZkbMpc Zkb SigSpec ZkbRound ZkbSign ZkbChal ZkbCodec ZkbTop.
Import ListNotations.

Section Top.
Variable E : env.
Variable P : paramset.
Let T := numMPCRounds P.
Let n := stateSizeBits P.
Let sB := stateSizeBytes P.
Let W := stateSizeWords P.
Let kB := seedSizeBytes P.
Hypothesis HP1 : wfP1 P.
Hypothesis HE : env_bytes_ok E.
Hypothesis HC : constants_ok E P.
Variables sk pub pt msg : bytes.
Hypotheses (Hsk : sB <= length sk /\ bytes_ok sk) (Hpub : sB <= length pub /\ bytes_ok pub) (Hpt : sB <= length pt /\ 4 * W <= length pt /\ bytes_ok pt).
Notation all_seeds := (all_seeds E P sk pub pt msg).
Notation seed_of := (seed_of E P sk pub pt msg).
Notation sig_salt := (sig_salt E P sk pub pt msg).
Notation sign_input := (sign_input E P sk pub pt msg).
Notation sign_opening := (sign_opening E P sk pub pt msg).

Lemma rounds_spec m : forall i,
  i + m <= T ->
  ok (sign_rounds E P m i all_seeds sig_salt sk pub pt) (fun r =>
    match r with
    | None => ~ lowmc_relation E P sk pt pub
    | Some l =>
        (0 < m -> lowmc_relation E P sk pt pub) /\ length l = m /\
        forall k rd, nth_error l k = Some rd ->
          round_is E P (seed_of (i + k)) sig_salt (i + k) sk pt rd
    end).
Proof.
  induction m as [|m IH]; intros i Hi; cbn [sign_rounds].
  - cbn [ok]. split; [lia|]. split; auto. intros [|k] rd; discriminate.
  - destruct Hpub as [Hpub1 Hpub2]. destruct Hpt as (Hpt1 & Hpt2 & Hpt3). destruct Hsk as [Hsk1 Hsk2].
    eapply ok_step.
    { apply (sign_round_spec E P HP1 HE HC i _ (seed_of i)); auto;
        try apply Hsk; try apply Hpub; try apply Hpt.
      - intros j Hj. split; [|apply (length_seed_of E P HE); auto; lia].
        unfold seed_at. rewrite (w1_N P HP1). fold kB. apply slice_ok.
        rewrite length_all_seeds by auto. nia.
      - apply (length_sig_salt E P HE). }
    intros [rd|] Hr; cbv beta iota in Hr; [|exact Hr].
    destruct Hr as [Hrel Hrd].
    eapply ok_step; [apply (IH (S i)); auto; lia|].
    intros [l|] Hl; cbv beta iota in Hl; cbn [ok]; [|contradiction].
    destruct Hl as (_ & Hl & Hk). split; [auto|]. split; [cbn [length]; lia|].
    intros [|k] rd' Hn; cbn [nth_error] in Hn.
    + injection Hn as <-. rewrite Nat.add_0_r. auto.
    + rewrite <- Nat.add_succ_comm. apply Hk; auto.
Qed.

Lemma sign_spec fuel :
  match sign_picnic1 E P fuel sk pub pt msg with
  | Ok None => ~ lowmc_relation E P sk pt pub
  | Ok (Some s) =>
      lowmc_relation E P sk pt pub /\
      exists ts, trits E P fuel (chal_hash E P sign_input) T = Some ts /\
        length ts = T /\ Forall (fun t => (t < 3)%N) ts /\
        sig_is P s (chal_of P ts) sig_salt (sign_opening (chal_of P ts))
  | NoFuel => lowmc_relation E P sk pt pub /\
              trits E P fuel (chal_hash E P sign_input) T = None
  | _ => False
  end.
Proof.
  destruct Hpub as [Hpub1 Hpub2]. destruct Hpt as (Hpt1 & Hpt2 & Hpt3). destruct Hsk as [Hsk1 Hsk2].
  pose proof (w1_T P HP1) as HT. fold T in HT.
  unfold sign_picnic1, computeSeeds. fold T.
  rewrite !slice0_ok by auto. cbn [bind]. rewrite (w1_N P HP1). fold T.
  change (hash E P HASH_PREFIX_NONE _ _) with all_seeds.
  unfold salt_of. fold T kB. rewrite (w1_N P HP1).
  rewrite slice_ok by (rewrite length_all_seeds by auto; nia). cbn [bind].
  change (firstn (saltSizeBytes P) (skipn (T * 3 * kB) all_seeds)) with sig_salt.
  pose proof (rounds_spec T 0 ltac:(lia)) as Hr.
  destruct (sign_rounds E P T 0 _ _ sk pub pt) as [[l|]| | |]; cbn [ok] in Hr; try contradiction.
  2:{ cbn [bind]. exact Hr. }
  cbn [bind]. destruct Hr as (Hrel & Hl & Hk). specialize (Hrel HT). cbn [Nat.add] in Hk.
  set (s := seed_of) in *. set (salt := sig_salt) in *.
  assert (Hsl : forall k j, k < T -> j < 3 -> length (s k j) = seedSizeBytes P)
    by (intros; apply (length_seed_of E P HE); auto).
  pose proof (H3_spec E P HP1 fuel pub pt
    (map (fun r => (v_outputShare (tget (r_views r) 0), v_outputShare (tget (r_views r) 1),
                    v_outputShare (tget (r_views r) 2))) l)
    (map r_commits l) (map r_gs l) (uninit E site_challengeBits 0 (numBytes (2 * T))) salt msg
    (fun k j => sr_out E P (s k) salt k sk pt j)
    (fun k j => sr_commit E P (s k) salt k sk pt j)
    (fun k j => sr_g E P (s k) salt k sk pt j)) as H3.
  specialize (H3 ltac:(split; [rewrite map_length; auto|]; intros k t Ht j Hj;
    rewrite nth_error_map in Ht; destruct (nth_error l k) as [rd|] eqn:Hn;
      [|discriminate]; cbn in Ht; injection Ht as <-;
    destruct (Hk k _ Hn) as (_ & Rv & _ & _);
    destruct (sr_out_share E P HP1 HE HC (s k) salt k sk pt j Hsk1 Hsk2 Hpt2 Hpt3 Hj) as [[A _] _];
    rewrite Rv;
    replace (tget (v_outputShare (tget (sr_views E P (s k) salt k sk pt) 0),
      v_outputShare (tget (sr_views E P (s k) salt k sk pt) 1),
      v_outputShare (tget (sr_views E P (s k) salt k sk pt) 2)) j) with (sr_out E P (s k) salt k sk pt j)
      by (destruct (lt3 j Hj) as [-> | [-> | ->]]; reflexivity);
    split; [rewrite A; auto|apply firstn_all2; rewrite A; auto])).
  specialize (H3 ltac:(split; [rewrite map_length; auto|]; intros k t Ht j Hj;
    rewrite nth_error_map in Ht; destruct (nth_error l k) as [rd|] eqn:Hn;
      [|discriminate]; cbn in Ht; injection Ht as <-;
    destruct (Hk k _ Hn) as (_ & _ & Rc & _); rewrite Rc by auto;
    assert (A : length (sr_commit E P (s k) salt k sk pt j) = digestSizeBytes P) by (apply hash_len; auto);
    split; [rewrite A; auto|apply firstn_all2; rewrite A; auto])).
  specialize (H3 ltac:(intros Hur; split; [rewrite map_length; auto|]; intros k t Ht j Hj;
    rewrite nth_error_map in Ht; destruct (nth_error l k) as [rd|] eqn:Hn;
      [|discriminate]; cbn in Ht; injection Ht as <-;
    destruct (Hk k _ Hn) as (_ & _ & _ & Rg); apply (Rg Hur j Hj))).
  specialize (H3 Hpub1 Hpt1 ltac:(apply (length_sig_salt E P HE)) ltac:(apply uninit_len; auto) ltac:(apply HE)).
  fold T in H3. change (chal_input P _ _ _ pub pt salt msg) with sign_input in H3.
  destruct (trits E P fuel _ T) as [ts|].
  2:{ rewrite H3. cbn [bind]. auto. }
  destruct H3 as (Htl & Htf & H3). rewrite H3. cbn [bind]. clear H3.
  set (cb := chal_of P ts).
  assert (Hcb : length cb = numBytes (2 * T)) by apply chal_of_spec.
  assert (Hc3 : forall k, k < T -> chalv cb k < 3) by (intros k Hk'; apply (chalv_chal_of P ts k); auto).
  assert (Hp : ok (mapM_seq T 0
                  (fun i =>
                     r <- rd l i ;;
                     c <- getChallenge cb i ;;
                     prove P (allocateProof E P site_proof i) c (r_seeds r) (r_views r)
                           (r_commits r) (r_gs r)))
     (fun prs => length prs = T /\ forall k pr, nth_error prs k = Some pr ->
        proof_is P (chalv cb (0 + k)) pr (sign_opening cb (0 + k)))).
  { apply (ok_mapM_seq (fun k pr => proof_is P (chalv cb k) pr (sign_opening cb k))).
    intros k Hk'. destruct (nth_error l k) as [rd|] eqn:Hn.
    2:{ apply nth_error_None in Hn. lia. }
    rewrite (rd_some _ _ _ Hn). cbn [bind].
    rewrite getChallenge_ok by (apply (chal_bound P); auto; lia). cbn [bind].
    apply prove_spec; auto; try (apply uninit_len; auto).
    - intros j Hj. apply Hsl; auto. lia.
    - apply Hc3. lia. }
  destruct (mapM_seq T 0 _) as [prs| | |]; cbn [ok] in Hp; try contradiction. cbn [bind].
  destruct Hp as [Hpl Hpk]. split; [auto|]. exists ts. split; [auto|]. split; [auto|]. split; [auto|].
  fold cb. split; [reflexivity|]. split; [reflexivity|]. split; auto.
Qed.
End Top.
