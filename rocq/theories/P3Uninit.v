(** Picnic3 signing and verification do not depend on uninitialised memory. *)

From Coq Require Import List NArith Arith Bool Lia ZifyBool ZifyNat ZifyN.
From Verif Require Import Base Params Env Spec LowMC Tree Picnic3 Api ApiSpec SigSpec BaseFacts ParamFacts LowMCFacts
  LowMCInj UtilFacts TreeShape TreeOpen TreeMissing TreeMerkle TreeVerify
  P3Tape P3Aux P3Online P3Mask P3Chal P3Round P3Seeds P3Verify P3Sign P3Complete P3Codec P3Ext P3Api.
Import ListNotations.

Section U.
Variable E : env.
Variable u : nat -> nat -> nat -> bytes.
Variable P : paramset.

Let E' := with_uninit E u.

Lemma hash_u : hash E' = hash E.
Proof. reflexivity. Qed.
Lemma tapes_u : tapes_of E' P = tapes_of E P.
Proof. reflexivity. Qed.
Lemma row_full_u : row_full E' P = row_full E P.
Proof. reflexivity. Qed.
Lemma row_open_u : row_open E' P = row_open E P.
Proof. reflexivity. Qed.
Lemma ch_u : ch_of E' P = ch_of E P.
Proof. reflexivity. Qed.
Lemma cv_u : cv_of E' P = cv_of E P.
Proof. reflexivity. Qed.
Lemma sgen_u : sgen E' P = sgen E P.
Proof. reflexivity. Qed.
Lemma srec_u : srec E' P = srec E P.
Proof. reflexivity. Qed.
Lemma expand_u : expandChallengeHash E' P = expandChallengeHash E P.
Proof. reflexivity. Qed.
Lemma hcp_u : hcp E' P = hcp E P.
Proof. reflexivity. Qed.
Lemma lowmc_u : lowmc_of E' P = lowmc_of E P.
Proof. reflexivity. Qed.
Lemma senc_u : senc E' P = senc E P.
Proof. reflexivity. Qed.
Lemma omsgs_u : omsgs E' P = omsgs E P.
Proof. reflexivity. Qed.
Lemma oout_u : oout E' P = oout E P.
Proof. reflexivity. Qed.
Lemma aux_tapes_u : aux_tapes E' P = aux_tapes E P.
Proof. reflexivity. Qed.
Lemma aux_key_u : aux_key E' P = aux_key E P.
Proof. reflexivity. Qed.
Lemma build_u : buildMerkleTree E' P = buildMerkleTree E P.
Proof. reflexivity. Qed.
Lemma vmt_u : verifyMerkleTree E' P = verifyMerkleTree E P.
Proof. reflexivity. Qed.
Lemma deser_u : deserializeSignature2 E' P = deserializeSignature2 E P.
Proof. reflexivity. Qed.

Section S.
Variables sk pub pt msg : bytes.

Lemma ssr_u : ssr E' P sk pub pt msg = ssr E P sk pub pt msg.
Proof. reflexivity. Qed.
Lemma ssalt_u : ssalt E' P sk pub pt msg = ssalt E P sk pub pt msg.
Proof. reflexivity. Qed.
Lemma sroot_u : sroot E' P sk pub pt msg = sroot E P sk pub pt msg.
Proof. reflexivity. Qed.
Lemma siseeds_u : siseeds E' P sk pub pt msg = siseeds E P sk pub pt msg.
Proof. unfold siseeds. rewrite sgen_u, ssalt_u, sroot_u. reflexivity. Qed.
Lemma sseeds_u t : sseeds E' P sk pub pt msg t = sseeds E P sk pub pt msg t.
Proof. unfold sseeds. rewrite sgen_u, ssalt_u, siseeds_u. reflexivity. Qed.
Lemma stl0_u t : stl0 E' P sk pub pt msg t = stl0 E P sk pub pt msg t.
Proof. unfold stl0. rewrite tapes_u, ssalt_u, sseeds_u. reflexivity. Qed.
Lemma stl_u t : stl E' P sk pub pt msg t = stl E P sk pub pt msg t.
Proof. unfold stl. rewrite aux_tapes_u, stl0_u. reflexivity. Qed.
Lemma smk_u t : smk E' P sk pub pt msg t = smk E P sk pub pt msg t.
Proof. unfold smk. rewrite aux_key_u, stl0_u. reflexivity. Qed.
Lemma srow_u t : srow E' P sk pub pt msg t = srow E P sk pub pt msg t.
Proof. unfold srow. rewrite row_full_u, ssalt_u, sseeds_u, stl_u. reflexivity. Qed.
Lemma sms_u t : sms E' P sk pub pt msg t = sms E P sk pub pt msg t.
Proof. unfold sms. rewrite omsgs_u, stl_u, smk_u. reflexivity. Qed.
Lemma sch_u t : sch E' P sk pub pt msg t = sch E P sk pub pt msg t.
Proof. unfold sch. rewrite ch_u, srow_u. reflexivity. Qed.
Lemma scv_u t : scv E' P sk pub pt msg t = scv E P sk pub pt msg t.
Proof. unfold scv. rewrite cv_u, smk_u, sms_u. reflexivity. Qed.
Lemma smerkle_u : smerkle E' P sk pub pt msg = smerkle E P sk pub pt msg.
Proof. unfold smerkle. rewrite build_u, ssalt_u. rewrite (map_ext _ _ scv_u). reflexivity. Qed.
Lemma shash_u : shash E' P sk pub pt msg = shash E P sk pub pt msg.
Proof. unfold shash. rewrite hcp_u, ssalt_u, smerkle_u. rewrite (map_ext _ _ sch_u). reflexivity. Qed.
Lemma sproof_u C L t : sproof E' P sk pub pt msg C L t = sproof E P sk pub pt msg C L t.
Proof.
  unfold sproof. destruct (contains C t); [|reflexivity]. cbv zeta.
  rewrite sseeds_u, stl_u, srow_u, smk_u, sms_u. reflexivity.
Qed.
Lemma ssig_u C L : ssig E' P sk pub pt msg C L = ssig E P sk pub pt msg C L.
Proof.
  unfold ssig. rewrite ssalt_u, siseeds_u, smerkle_u, shash_u. rewrite (map_ext _ _ (sproof_u C L)). reflexivity.
Qed.
End S.

Section V.
Variable s : signature2.
Variables pub pt msg : bytes.

Lemma viseeds_u : viseeds E' P s = viseeds E P s.
Proof. unfold viseeds. rewrite srec_u. reflexivity. Qed.
Lemma vseeds_u t : vseeds E' P s t = vseeds E P s t.
Proof. unfold vseeds. rewrite srec_u, sgen_u, viseeds_u. reflexivity. Qed.
Lemma vtapes0_u t : vtapes0 E' P s t = vtapes0 E P s t.
Proof. unfold vtapes0. rewrite tapes_u, vseeds_u. reflexivity. Qed.
Lemma vtapes_u t : vtapes E' P s t = vtapes E P s t.
Proof. unfold vtapes. rewrite aux_tapes_u, vtapes0_u. reflexivity. Qed.
Lemma vrow_u t : vrow E' P s t = vrow E P s t.
Proof. unfold vrow. rewrite row_open_u, row_full_u, vseeds_u, vtapes_u. reflexivity. Qed.
Lemma vch_u t : vch E' P s t = vch E P s t.
Proof. unfold vch. rewrite ch_u, vrow_u. reflexivity. Qed.
Lemma votl_u t : votl E' P s t = votl E P s t.
Proof. unfold votl. rewrite vtapes0_u. reflexivity. Qed.
Lemma vout_u t : vout E' P s pub pt t = vout E P s pub pt t.
Proof. unfold vout. rewrite oout_u, votl_u. reflexivity. Qed.
Lemma vms_u t : vms E' P s pt t = vms E P s pt t.
Proof. unfold vms. rewrite omsgs_u, votl_u. reflexivity. Qed.
Lemma vcv_u t : vcv E' P s pt t = vcv E P s pt t.
Proof. unfold vcv. rewrite cv_u, vms_u. reflexivity. Qed.
Lemma vmerkle_u : vmerkle E' P s pt = vmerkle E P s pt.
Proof.
  unfold vmerkle. rewrite vmt_u. assert (H : vCv E' P s pt = vCv E P s pt).
  { unfold vCv. apply map_ext. intros t. rewrite vcv_u. reflexivity. }
  rewrite H. reflexivity.
Qed.
Lemma vresult_u : vresult E' P s pub pt msg = vresult E P s pub pt msg.
Proof.
  assert (H : vsim E' P s pub pt = vsim E P s pub pt).
  { unfold vsim. apply forallb_same. intros t. rewrite vout_u. reflexivity. }
  unfold vresult. rewrite H, hcp_u, vmerkle_u, (map_ext _ _ vch_u). reflexivity.
Qed.
End V.

Variable p : N.
Hypothesis HP : get_param_set p = Some P.
Hypothesis H3 : is_picnic3 p = true.
Hypothesis HE : env_bytes_ok E.
Hypothesis HE' : env_bytes_ok E'.
Hypothesis HC : constants_ok E P.
Hypothesis HI : inverses_ok E P.
Let HP3 : wfP3 P := get_param_set_wfP3 _ _ HP H3.

Lemma sign3_uninit fuel sk msg buf len : sk_params sk = p -> sk_wf sk -> len <= length buf ->
  picnic_sign E' fuel sk msg buf len = picnic_sign E fuel sk msg buf len.
Proof.
  intros Hp W Hl.
  rewrite (sign3_eq E P p HP H3 HE HC HI) by auto.
  rewrite (sign3_eq E' P p HP H3 HE' HC HI) by auto.
  rewrite senc_u.
  assert (Hc : schal E' P fuel sk msg = schal E P fuel sk msg) by (unfold schal; rewrite shash_u, expand_u; reflexivity).
  rewrite Hc. clear Hc. destruct (eqb_bytes _ _); [|reflexivity].
  destruct (schal E P fuel sk msg) as [CL| | |]; cbn [bind]; [|reflexivity..].
  unfold sbytes. rewrite ssig_u. reflexivity.
Qed.

Lemma verify3_uninit fuel pk msg sg : pk_params pk = p -> pk_wf pk -> bytes_ok sg ->
  picnic_verify E' fuel pk msg sg = picnic_verify E fuel pk msg sg.
Proof.
  intros Hp W Hb. unfold picnic_verify. rewrite Hp, HP, H3. cbn [negb].
  rewrite deser_u. pose proof (deser_cases P HP3 E HE fuel sg Hb) as Hd.
  destruct (deserializeSignature2 E P fuel sg) as [d| | |]; cbn [bind]; [|reflexivity..].
  destruct d as [s|]; [|reflexivity].
  assert (Hr : sig3_raw P s).
  { destruct Hd as [[_ Hd]|[(_ & _ & Hd)|(C & L & _ & _ & _ & Hd)]]; try discriminate.
    destruct Hd as [[_ Hd]|(s' & Hr & _ & _ & _ & _ & Hd)]; [discriminate|].
    destruct (all_pads P s'); [|discriminate]. injection Hd as ->. exact Hr. }
  clear Hd. destruct W as [Wpt Wpub].
  destruct (block_len P p HP H3 _ Wpt) as [L2 _]. destruct (block_len P p HP H3 _ Wpub) as [_ L3].
  apply (raw_wf P) in Hr.
  rewrite (verify_picnic3_ok E P) by (auto; apply Wpt).
  rewrite (verify_picnic3_ok E' P) by (auto; apply Wpt).
  rewrite vresult_u. reflexivity.
Qed.
End U.
