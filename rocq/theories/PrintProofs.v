(** print_signature. *)

From Coq Require Import List NArith Arith Bool Lia ZifyBool ZifyNat ZifyN.
From Verif Require Import Base Params Env Spec LowMC Picnic1 Tree Picnic3 Api ApiSpec BaseFacts ParamFacts ApiFacts
  LowMCFacts LowMCInj Hint ZkbMpc Zkb SigSpec ZkbRound ZkbSign ZkbChal ZkbCodec ZkbApi.
From Verif Require Import P3Tape P3Verify P3Codec ZkbppSpec Print PrintSpec.
Import ListNotations.

Lemma shown_app a b : shown (a ++ b) = shown a ++ shown b.
Proof. induction a as [|x a IH]; [reflexivity|]. destruct x; cbn [app shown]; rewrite ?IH, <- ?app_assoc; reflexivity. Qed.

Lemma copy_print_ok l field sg off len x rest : skipn off sg = x ++ rest -> length x = len -> off <= length sg ->
  len <= length field -> copy_print l field sg off len = Ok (Hex l x, off + len) /\ skipn (off + len) sg = rest /\ off + len <= length sg.
Proof.
  intros Hs Hx Ho Hf. destruct (slice_skip _ _ _ _ _ Hs Hx Ho) as (H1 & H2 & H3). split; [|auto].
  unfold copy_print, printHex. rewrite H1. cbn [bind]. rewrite blit_ok by lia. cbn [bind].
  rewrite slice0_ok by (rewrite length_blit0 by lia; lia). cbn [bind]. rewrite firstn_blit0 by auto. reflexivity.
Qed.

Section Z.
Variable E : env.
Variable P : paramset.
Hypothesis HP1 : wfP1 P.
Hypothesis HE : env_bytes_ok E.
Let T := numMPCRounds P.

Lemma print_round_ok cb sg pr off i o rest :
  2 * i + 1 < 8 * length cb -> chalv cb i < 3 ->
  skipn off sg = enc_round P (chalv cb i) o ++ rest -> off <= length sg ->
  opening_wf P (chalv cb i) o -> proof_is P (chalv cb i) pr o ->
  exists off', print_round P cb sg pr off i = Ok (round_lines P i (chalv cb i) pr, off') /\ off' <= length sg /\ skipn off' sg = rest /\
    shown (round_lines P i (chalv cb i) pr) = enc_round P (chalv cb i) o.
Proof.
  intros Hi Hch Hsk Hoff (H1 & H2 & H3 & _ & H5 & H6 & H7) (Q1 & Q2 & Q3 & Q4 & Q5 & Q6 & Q7).
  unfold print_round, round_lines. rewrite getChallenge_ok by auto. cbn [bind]. set (ch := chalv cb i) in *.
  unfold enc_round in Hsk. rewrite <- !app_assoc in Hsk.
  rewrite Q1, Q2, Q3, Q4.
  destruct (copy_print_ok (L_b i) (o_c3 o) _ _ _ _ _ Hsk H5 Hoff) as (-> & Hk1 & Ho1); [lia|]. cbn [bind].
  match goal with |- exists off', bind ?x _ = _ /\ _ => assert (Hg : exists off1, x = Ok (if is_UR (transf P) then [Hex (L_G i) (o_g3 o)] else [], off1) /\
    off1 <= length sg /\
    skipn off1 sg = o_comm o ++ o_seed1 o ++ o_seed2 o ++ (if ch =? 0 then [] else o_in o) ++ rest) end.
  { destruct (is_UR (transf P)) eqn:Hur.
    - cbv zeta. rewrite (G_len_prv P HP1) by auto. specialize (H6 eq_refl). destruct (Q5 eq_refl) as [Q5a _].
      pose proof (G_len_le P HP1 (prv ch) Hur) as Hle.
      destruct (copy_print_ok (L_G i) (p_view3UnruhG pr) _ _ _ _ _ Hk1 H6 Ho1) as (-> & Hk2 & Ho2); [lia|]. cbn [bind]. eauto.
    - eauto. }
  destruct Hg as (off1 & -> & Ho2 & Hk2). cbn [bind].
  destruct (copy_print_ok L_transcript (o_comm o) _ _ _ _ _ Hk2 H3 Ho2) as (-> & Hk3 & Ho3); [lia|]. cbn [bind].
  destruct (copy_print_ok L_seed1 (o_seed1 o) _ _ _ _ _ Hk3 H1 Ho3) as (-> & Hk4 & Ho4); [lia|]. cbn [bind].
  destruct (copy_print_ok L_seed2 (o_seed2 o) _ _ _ _ _ Hk4 H2 Ho4) as (-> & Hk5 & Ho5); [lia|]. cbn [bind].
  assert (HG : (if is_UR (transf P) then [Hex (L_G i) (firstn (if ch =? 0 then UnruhGWithInputBytes P else UnruhGWithoutInputBytes P) (p_view3UnruhG pr))] else []) =
    if is_UR (transf P) then [Hex (L_G i) (o_g3 o)] else []).
  { destruct (is_UR (transf P)) eqn:Hur; [|reflexivity]. rewrite (G_len_prv P HP1) by auto. destruct (Q5 eq_refl) as [_ ->]. reflexivity. }
  rewrite HG. clear HG.
  replace ((ch =? 1) || (ch =? 2)) with (negb (ch =? 0))
    by (clear - Hch; destruct (lt3 ch Hch) as [E0 | [E0 | E0]]; rewrite E0; reflexivity).
  destruct (Nat.eqb_spec ch 0) as [Hc0|Hc0]; cbn [negb].
  - cbn [bind]. eexists. split; [reflexivity|]. split; [exact Ho5|]. split; [exact Hk5|].
    unfold enc_round. rewrite (proj2 (Nat.eqb_eq ch 0) Hc0). destruct (is_UR (transf P)); cbn [app shown]; rewrite ?app_nil_r; reflexivity.
  - destruct (H7 Hc0) as [Hil Hib].
    destruct (copy_print_ok L_inputShare (p_inputShare pr) _ _ _ _ _ Hk5 Hil Ho5) as (-> & Hk6 & Ho6); [lia|]. cbn [bind].
    rewrite (Q7 Hc0). eexists. split; [reflexivity|]. split; [exact Ho6|]. split; [exact Hk6|].
    unfold enc_round. rewrite (proj2 (Nat.eqb_neq ch 0) Hc0). destruct (is_UR (transf P)); cbn [app shown]; rewrite ?app_nil_r; reflexivity.
Qed.

Lemma print_rounds_ok cb sg prs proofs os m : forall off i rest,
  length cb = numBytes (2 * T) -> i + m <= T ->
  (forall k, i <= k < i + m -> chalv cb k < 3 /\ opening_wf P (chalv cb k) (os k) /\
     nth_error proofs k = Some (prs k) /\ proof_is P (chalv cb k) (prs k) (os k)) ->
  skipn off sg = concat (map (fun k => enc_round P (chalv cb k) (os k)) (seq i m)) ++ rest ->
  off <= length sg ->
  print_rounds P m i cb sg proofs off = Ok (concat (map (fun t => round_lines P t (chalv cb t) (prs t)) (seq i m))) /\
  shown (concat (map (fun t => round_lines P t (chalv cb t) (prs t)) (seq i m))) =
    concat (map (fun k => enc_round P (chalv cb k) (os k)) (seq i m)).
Proof.
  induction m as [|m IH]; intros off i rest Hcb Him Hwf Hsk Hoff; cbn [print_rounds seq map concat]; [split; reflexivity|].
  cbn [seq map concat] in Hsk. rewrite <- app_assoc in Hsk. destruct (Hwf i ltac:(lia)) as (Hc & Ho & Hn & Hp).
  unfold rd. rewrite Hn. cbn [bind].
  destruct (print_round_ok cb sg (prs i) off i (os i) _ (chal_bound P cb i Hcb ltac:(unfold T in *; lia)) Hc Hsk Hoff Ho Hp) as (off' & -> & Ho' & Hs' & Hsh).
  cbn [bind]. destruct (IH off' (S i) rest Hcb ltac:(lia) ltac:(intros; apply Hwf; lia) Hs' Ho') as [-> Hsh'].
  cbn [bind]. split; [reflexivity|]. rewrite shown_app, Hsh, Hsh'. reflexivity.
Qed.
End Z.

Lemma print_zkb_pf E p P fuel sg s : get_param_set p = Some P -> is_picnic3 p = false -> env_bytes_ok E -> bytes_ok sg ->
  deserializeSignature E P sg = Ok (Some s) ->
  exists ls, print_signature E fuel sg p = Ok ls /\ lines_of P s (encoded_trit sg) ls /\ exists rest, sg = shown ls ++ rest.
Proof.
  intros HP H3 HE Hb Hd. pose proof (get_param_set_wfP1 _ _ HP H3) as HP1.
  pose proof (deserialize_shape E P HP1 HE (uninit E) sg) as Hsh. rewrite with_uninit_id in Hsh. destruct (Hsh HE) as [_ L]. clear Hsh.
  rewrite Hd in L. cbn [ok_some] in L. pose proof (deserialize_spec E P HP1 HE sg Hb L) as Hs. rewrite Hd in Hs. cbn [ok] in Hs.
  destruct Hs as (cb & salt & os & rest & Hsg & Hcb & (W1 & W2 & W3) & Hpad & (S1 & S2 & S3 & S4)).
  assert (Hnum : exists prs, forall t, t < numMPCRounds P -> nth_error (s_proofs s) t = Some (prs t)).
  { exists (fun t => nth t (s_proofs s) (mkProof [] [] [] [] [] [])). intros t Ht. apply nth_error_nth'. lia. }
  destruct Hnum as [prs Hprs].
  assert (Hchal : forall k, k < numMPCRounds P -> chalv sg k = chalv cb k).
  { intros k Hk. apply (chalv_firstn P); auto. rewrite Hsg. unfold enc. rewrite <- app_assoc. symmetry. apply firstn_exact. auto. }
  unfold print_signature. rewrite H3, HP, Hd. cbn [bind]. rewrite S1.
  assert (Hk0 : skipn 0 sg = cb ++ salt ++ concat (map (fun k => enc_round P (chalv cb k) (os k)) (seq 0 (numMPCRounds P))) ++ rest).
  { cbn [skipn]. rewrite Hsg. unfold enc. rewrite <- !app_assoc. reflexivity. }
  destruct (copy_print_ok L_challenge cb sg 0 _ _ _ Hk0 W1 ltac:(lia)) as (-> & Hk1 & Ho1); [lia|]. cbn [bind].
  destruct (slice_skip _ _ _ _ _ Hk0 W1 ltac:(lia)) as (-> & _ & _). cbn [bind].
  rewrite blit_ok by lia. cbn [bind].
  destruct (slice_skip _ _ _ _ _ Hk1 W2 Ho1) as (-> & Hk2 & Ho2). cbn [bind].
  assert (Hbl : blit_list cb 0 cb = cb).
  { transitivity (firstn (length cb) (blit_list cb 0 cb)); [|apply firstn_blit0; auto].
    symmetry. apply firstn_all2. rewrite length_blit0 by lia. lia. }
  rewrite Hbl.
  assert (Hwf : forall k, 0 <= k < 0 + numMPCRounds P -> chalv cb k < 3 /\ opening_wf P (chalv cb k) (os k) /\
     nth_error (s_proofs s) k = Some (prs k) /\ proof_is P (chalv cb k) (prs k) (os k)).
  { intros k Hk. destruct (W3 k ltac:(lia)) as [Wa Wb]. split; [exact Wa|]. split; [exact Wb|]. split; [apply Hprs; lia|].
    apply S4. apply Hprs. lia. }
  destruct (print_rounds_ok P HP1 cb sg prs (s_proofs s) os (numMPCRounds P) _ 0 rest W1 ltac:(lia) Hwf Hk2 Ho2) as [-> Hshown].
  cbn [bind]. eexists. split; [reflexivity|]. split.
  - exists prs. split; [exact Hprs|]. rewrite S1, S2. f_equal. f_equal. apply map_ext_in. intros t Ht. apply in_seq in Ht.
    replace (encoded_trit sg t) with (chalv sg t) by apply Nat.add_comm. rewrite Hchal by lia. reflexivity.
  - exists rest. cbn [app shown]. rewrite Hshown, Hsg. unfold enc. rewrite <- !app_assoc. reflexivity.
Qed.

Lemma print_zkb_none E p P fuel sg : get_param_set p = Some P -> is_picnic3 p = false ->
  deserializeSignature E P sg = Ok None -> print_signature E fuel sg p = Ok [InvalidSignature].
Proof. intros HP H3 Hd. unfold print_signature. rewrite H3, HP, Hd. reflexivity. Qed.

(** Picnic3: the last field of every opened round is read beyond its end. *)
Lemma print_p3_pf E p P fuel sg s : get_param_set p = Some P -> is_picnic3 p = true -> env_bytes_ok E -> bytes_ok sg ->
  deserializeSignature2 E P fuel sg = Ok (Some s) -> print_signature E fuel sg p = UB.
Proof.
  intros HP H3 HE Hb Hd. pose proof (get_param_set_wfP3 _ _ HP H3) as HP3.
  assert (Hw : sig3_wf P s).
  { destruct (deser_cases P HP3 E HE fuel sg Hb) as [[_ Hx]|[(_ & _ & Hx)|(C & L & _ & _ & _ & [(_ & Hx)|(s' & Hr & _ & _ & _ & _ & Hx)])]];
      rewrite Hx in Hd; try discriminate Hd.
    destruct (all_pads P s'); [|discriminate Hd]. injection Hd as <-. exact (raw_wf P s' Hr). }
  destruct Hw as (W1 & W2 & (C1 & C2 & C3 & C4 & C5) & W4 & W5 & W6).
  pose proof (w3_u P HP3) as Hu.
  unfold print_signature. rewrite H3. unfold print_signature2. rewrite HP, Hd. cbn [bind].
  rewrite (slice_all (g_challengeC s)), (slice_all (g_challengeP s)) by auto. cbn [bind]. unfold printHex.
  rewrite (slice_all (g_salt s)), !slice_all by auto. cbn [bind].
  replace (numOpenedRounds P) with (S (numOpenedRounds P - 1)) by lia. cbn [mapM_seq].
  replace (print_opened P s 0) with (@UB (list line)); [reflexivity|]. symmetry. unfold print_opened, printHex.
  destruct (nth_error (g_challengeC s) 0) as [c|] eqn:Ec; [|apply nth_error_None in Ec; lia].
  destruct (nth_error (g_challengeP s) 0) as [l|] eqn:El; [|apply nth_error_None in El; lia].
  unfold rd at 1 2. rewrite Ec, El. cbn [bind].
  destruct (W6 c (nth_error_In _ _ Ec)) as (q & Hq & Q1 & Q2 & Q3 & Q4 & Q5 & _).
  unfold rd_proof, rd. rewrite (nth_error_nth' (g_proofs s) c None).
  2:{ rewrite W5. rewrite Forall_forall in C3. apply C3. exact (nth_error_In _ _ Ec). }
  rewrite Hq. cbn [bind]. rewrite !slice_all by auto. cbn [bind]. unfold slice. rewrite Q5.
  assert (0 < stateSizeBytes P).
  { rewrite (wf_sB P (w3_wfP P HP3)). pose proof (wf_n P (w3_wfP P HP3)). unfold numBytes. replace (_ =? 0) with false by lia. lia. }
  replace (0 + (stateSizeBytes P + andSizeBytes P) <=? andSizeBytes P) with false; [reflexivity|].
  symmetry. apply Nat.leb_gt. lia.
Qed.

(** In terms of picnic_verify. *)
Lemma accepted_prints E fuel fuel' p P pk msg sg : get_param_set p = Some P -> is_picnic3 p = false -> env_bytes_ok E ->
  pk_params pk = p -> bytes_ok sg -> picnic_verify E fuel pk msg sg = Ok true ->
  exists s ls, deserializeSignature E P sg = Ok (Some s) /\ print_signature E fuel' sg p = Ok ls /\
    lines_of P s (encoded_trit sg) ls /\ sg = shown ls ++ skipn (length (shown ls)) sg.
Proof.
  intros HP H3 HE Hk Hb Hv. unfold picnic_verify in Hv. rewrite Hk, HP, H3 in Hv. cbn [negb] in Hv.
  destruct (deserializeSignature E P sg) as [[s|]| | |] eqn:Hd; try discriminate Hv.
  destruct (print_zkb_pf E p P fuel' sg s HP H3 HE Hb Hd) as (ls & Hp & Hl & rest & Hr). exists s, ls.
  split; [reflexivity|]. split; [exact Hp|]. split; [exact Hl|]. rewrite Hr at 2. rewrite skipn_app, Nat.sub_diag, skipn_all. exact Hr.
Qed.

Lemma accepted_print_ub E fuel p P pk msg sg : get_param_set p = Some P -> is_picnic3 p = true -> env_bytes_ok E ->
  pk_params pk = p -> bytes_ok sg -> picnic_verify E fuel pk msg sg = Ok true -> print_signature E fuel sg p = UB.
Proof.
  intros HP H3 HE Hk Hb Hv. unfold picnic_verify in Hv. rewrite Hk, HP, H3 in Hv. cbn [negb] in Hv.
  destruct (deserializeSignature2 E P fuel sg) as [[s|]| | |] eqn:Hd; try discriminate Hv.
  exact (print_p3_pf E p P fuel sg s HP H3 HE Hb Hd).
Qed.

Lemma print_unparsed E fuel p P sg : get_param_set p = Some P ->
  (if is_picnic3 p then deserializeSignature2 E P fuel sg = Ok None else deserializeSignature E P sg = Ok None) ->
  print_signature E fuel sg p = Ok [InvalidSignature].
Proof.
  intros HP H. unfold print_signature, print_signature2. rewrite HP. destruct (is_picnic3 p); rewrite H; reflexivity.
Qed.
