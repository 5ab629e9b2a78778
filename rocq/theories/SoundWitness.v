(** A case for the soundness of Picnic3: structures made by the signer for three challenges. *)

From Coq Require Import List NArith Arith Bool Lia ZifyBool ZifyNat ZifyN.
From Verif Require Import Base Params Env Spec LowMC Tree Picnic3 Api ApiSpec SigSpec P3Spec BaseFacts ParamFacts
  LowMCFacts LowMCInj UtilFacts ZkbChal TreeShape TreeReveal TreeOpen TreeMissing TreeMerkle TreeVerify TreeSpec TreeTop
  P3Tape P3Aux P3Online P3Mask P3Chal P3Round P3Seeds P3Verify P3Sign
  P3Complete P3Codec P3Ext P3Api P3Uninit P3Bytes P3Props ZkbppSpec KkwSpec KkwTree KkwChal SoundSpec Witness ZkbWitness P3Witness.
Import ListNotations.

Local Opaque pack.

Lemma raw_shape P p (HP : get_param_set p = Some P) (H3 : is_picnic3 p = true) s :
  sig3_raw P s -> all_pads P s = true -> sig2_shape P s.
Proof.
  pose proof (get_param_set_wfP3 _ _ HP H3) as HP3. pose proof (T_rng P HP3) as HT.
  intros (H1 & H2 & Hw & Hi & Hc & Hl & Hr) Ha. unfold sig2_shape. cbv zeta. rewrite others_filter.
  set (C := g_challengeC s) in *. set (L := g_challengeP s) in *.
  pose proof Hw as (W1 & W2 & W3 & W4 & W5).
  rewrite (revealSize P _ HT C W3), (revealMSize P HP3 _ (others_lt P C)), Hi, Hc.
  split; [auto|]. split; [auto|]. split.
  { unfold chal3_wf. rewrite (w3_N P HP3). exact Hw. }
  repeat (split; [solve [auto]|]). split.
  - intros k t v Hk Hv. assert (Hin : In t C) by (eapply nth_error_In; eauto).
    assert (Ht : t < numMPCRounds P) by (rewrite Forall_forall in W3; auto).
    pose proof (party_nth P C L k t v Hw Hk Hv) as Hp.
    pose proof Hin as Ec. apply contains_In in Ec.
    specialize (Hr t Ht). unfold rwf in Hr. rewrite Ec in Hr. destruct Hr as (q & Hq & (Q1 & Q2 & Q3 & Q4 & Q5 & Q6 & Q7) & Qa).
    exists q. split; [apply nth_error_opt; [lia|auto]|].
    unfold all_pads in Ha. rewrite forallb_forall in Ha. specialize (Ha t). fold C L in Ha.
    rewrite in_seq in Ha. specialize (Ha ltac:(lia)). unfold rpad in Ha. rewrite Ec, Hq, Hp in Ha.
    apply andb_true_iff in Ha. destruct Ha as [Ha1 Ha2]. rewrite Hp in Qa.
    unfold proof2_wf. repeat (split; [solve [auto]|]). split; [apply (gpad_iff P p HP H3); auto|]. repeat (split; [solve [auto]|]).
    destruct (Nat.eqb_spec v 15) as [Hv15|Hv15]; [auto|]. cbn [orb] in Ha1. apply (gpad_iff P p HP H3); auto.
  - intros t Ht Hnin. specialize (Hr t Ht). unfold rwf in Hr. destruct (contains C t) eqn:Ec.
    + apply contains_In in Ec. contradiction.
    + apply nth_error_opt; [lia|auto].
Qed.

Lemma seq_chal P (HP3 : wfP3 P) i v : i <= 1 -> v < 16 -> chal_wf P (seq i (numOpenedRounds P)) (repeat v (numOpenedRounds P)).
Proof.
  intros Hi Hv. pose proof (w3_u P HP3) as Hu. unfold chal_wf.
  split; [apply seq_NoDup|]. split; [apply seq_length|]. split.
  { apply Forall_forall. intros x Hx. apply in_seq in Hx. lia. }
  split; [apply repeat_length|]. apply Forall_forall. intros x Hx. apply repeat_spec in Hx. lia.
Qed.

Lemma unopened_repeat k v : 0 < k -> unopened (seq 0 k) (repeat v k) 0 = v.
Proof. destruct k; [lia|]. intros _. reflexivity. Qed.

Lemma three_openings E P p sk pub pt msg :
  get_param_set p = Some P -> is_picnic3 p = true -> env_bytes_ok E -> constants_ok E P -> inverses_ok E P ->
  block_wf sk -> block_wf pub -> block_wf pt -> lowmc_relation E P sk pt pub ->
  exists s1 s2 s3 q2,
  sig2_shape P s1 /\ sig2_shape P s2 /\ sig2_shape P s3 /\
  g_challengeHash s1 = g_challengeHash s2 /\ g_challengeHash s1 = g_challengeHash s3 /\
  verify_picnic3 E P s1 pub pt msg = Ok true /\ verify_picnic3 E P s2 pub pt msg = Ok true /\
  verify_picnic3 E P s3 pub pt msg = Ok true /\
  ~ In 0 (g_challengeC s1) /\ In 0 (g_challengeC s2) /\ In 0 (g_challengeC s3) /\
  unopened (g_challengeC s2) (g_challengeP s2) 0 <> unopened (g_challengeC s3) (g_challengeP s3) 0 /\
  nth_error (g_proofs s2) 0 = Some (Some q2).
Proof.
  intros HP H3 HE HC HI Wsk Wpub Wpt Hr. pose proof (get_param_set_wfP3 _ _ HP H3) as HP3.
  destruct (block_len P p HP H3 _ Wsk) as [L1 _].
  destruct (block_len P p HP H3 _ Wpt) as [L2 _]. destruct (block_len P p HP H3 _ Wpub) as [_ L3].
  pose proof (w3_u P HP3) as Hu.
  apply (senc_rel E P HP3) in Hr; [|auto|apply Wpub]. apply eqb_bytes_eq in Hr.
  set (u := numOpenedRounds P) in *.
  assert (Hin : In 0 (seq 0 u)) by (apply in_seq; lia).
  assert (Hsh : forall i v, i <= 1 -> v < 16 -> sig2_shape P (ssig E P sk pub pt msg (seq i u) (repeat v u)) /\
    verify_picnic3 E P (ssig E P sk pub pt msg (seq i u) (repeat v u)) pub pt msg = Ok true).
  { intros i v Hi Hv. pose proof (seq_chal P HP3 i v Hi Hv) as Hw. fold u in Hw. split.
    - destruct (ssig_raw E P HP3 sk pub pt msg HE L1 L2 L3 _ _ Hw) as [R1 R2]. apply (raw_shape P p HP H3); auto.
    - apply verify_ssig; auto; apply Wpt. }
  pose proof (seq_chal P HP3 0 0 ltac:(lia) ltac:(lia)) as Hw. fold u in Hw.
  exists (ssig E P sk pub pt msg (seq 1 u) (repeat 0 u)), (ssig E P sk pub pt msg (seq 0 u) (repeat 0 u)),
    (ssig E P sk pub pt msg (seq 0 u) (repeat 15 u)).
  assert (Hq : exists q2, nth_error (g_proofs (ssig E P sk pub pt msg (seq 0 u) (repeat 0 u))) 0 = Some (Some q2)).
  { cbn [ssig g_proofs]. eexists. apply nth_error_opt; [rewrite map_length, seq_length; lia|].
    rewrite nth_map_seq by lia. unfold sproof. replace (contains (seq 0 u) 0) with true by (symmetry; apply contains_In; auto).
    reflexivity. }
  destruct Hq as [q2 Hq]. exists q2.
  split; [apply Hsh; lia|]. split; [apply Hsh; lia|]. split; [apply Hsh; lia|].
  split; [reflexivity|]. split; [reflexivity|].
  split; [apply Hsh; lia|]. split; [apply Hsh; lia|]. split; [apply Hsh; lia|].
  cbn [ssig g_challengeC g_challengeP].
  split; [intros H; apply in_seq in H; lia|]. split; [exact Hin|]. split; [exact Hin|].
  split; [rewrite !unopened_repeat by lia; discriminate|exact Hq].
Qed.
