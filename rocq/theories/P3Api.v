(** picnic_sign and picnic_verify for the Picnic3 parameter sets. *)

From Coq Require Import List NArith Arith Bool Lia ZifyBool ZifyNat ZifyN.
From Verif Require Import Base Params Env Spec LowMC Tree Picnic3 Api ApiSpec SigSpec BaseFacts ParamFacts LowMCFacts
  LowMCInj UtilFacts TreeShape TreeOpen TreeMissing TreeMerkle TreeVerify
  P3Tape P3Aux P3Online P3Mask P3Chal P3Round P3Seeds P3Verify P3Sign P3Complete P3Codec P3Ext.
Import ListNotations.

(** ** The announced maximal size *)
Definition max3 (P : paramset) : N :=
  let N' := N.of_nat in
  let rb := N' (rbound (Nat.log2_up (numMPCRounds P)) (numOpenedRounds P)) in
  (N' (digestSizeBytes P) + N' (saltSizeBytes P) + rb * N' (seedSizeBytes P) + rb * N' (digestSizeBytes P) +
   N' (numOpenedRounds P) * (4 * N' (seedSizeBytes P) + 2 * N' (andSizeBytes P) + N' (stateSizeBytes P)
                             + N' (digestSizeBytes P)))%N.

Lemma max3_le p P : get_param_set p = Some P -> is_picnic3 p = true -> (max3 P <= picnic_signature_size p)%N.
Proof.
  intros HP H3.
  assert (H : (negb (is_picnic3 p) || (max3 P <=? picnic_signature_size p)%N) = true).
  { revert HP. apply (params_forall (fun p P => negb (is_picnic3 p) || (max3 P <=? picnic_signature_size p)%N)).
    vm_compute. reflexivity. }
  rewrite H3 in H. cbn [negb orb] in H. lia.
Qed.

Lemma slen_le p P C L : get_param_set p = Some P -> is_picnic3 p = true -> chal_wf P C L ->
  slen P C L <= N.to_nat (picnic_signature_size p).
Proof.
  intros HP H3 Hw. pose proof (get_param_set_wfP3 _ _ HP H3) as HP3. pose proof (max3_le _ _ HP H3) as Hm.
  pose proof (T_rng P HP3) as HT. pose proof (plen_sum P C L Hw) as Hs. pose proof Hw as (W1 & W2 & W3 & _).
  pose proof (w3_u P HP3) as Hu.
  assert (Hne : C <> []) by (intros ->; cbn in W2; lia).
  pose proof (rvs_bound _ HT C W3 Hne W1) as Hr. rewrite W2 in Hr.
  assert (Hmr : length (mrvs (numMPCRounds P) (others P C)) <= rbound (Nat.log2_up (numMPCRounds P)) (numOpenedRounds P)).
  { pose proof (createTree_ok (numMPCRounds P) _ ltac:(lia) eq_refl (D_small _ HT) 0) as Hc. apply ok_ex in Hc.
    destruct Hc as (t0 & _ & Hs0 & _).
    destruct (mrvs_ok _ HT (others P C) _ _ (others_lt P C) Hs0) as (_ & m & M1 & M2 & M3 & _).
    rewrite <- W2.
    apply (Rm_count (numMPCRounds P) _ (proj1 HT) (n_pow _ HT) (others P C) (others_lt P C) m M1 C W3); auto.
    - intros l Hl. rewrite others_In. split; [tauto|]. intros H. destruct (in_dec Nat.eq_dec l C) as [|Hn]; [auto|]. exfalso. auto.
    - intros r Hin. apply M3. auto. }
  unfold slen. unfold max3 in Hm. cbv zeta in Hm.
  pose proof (Nat.mul_le_mono_r _ _ (seedSizeBytes P) Hr) as A1.
  pose proof (Nat.mul_le_mono_r _ _ (digestSizeBytes P) Hmr) as A2.
  remember (rbound (Nat.log2_up (numMPCRounds P)) (numOpenedRounds P)) as rb.
  revert Hs A1 A2 Hm. clear. intros. lia.
Qed.

Section A.
Variable E : env.
Variable P : paramset.
Variable p : N.
Hypothesis HP : get_param_set p = Some P.
Hypothesis H3 : is_picnic3 p = true.
Hypothesis HE : env_bytes_ok E.
Hypothesis HC : constants_ok E P.
Hypothesis HI : inverses_ok E P.
Let HP3 : wfP3 P := get_param_set_wfP3 _ _ HP H3.

Lemma block_len b : block_wf b -> 4 * stateSizeWords P <= length b /\ stateSizeBytes P <= length b.
Proof.
  intros [Hl _]. pose proof (wf_W3 P (w3_wfP P HP3)). pose proof (sB_4W P HP3). lia.
Qed.

(** Encoded signature for a challenge. *)
Definition sbytes (sk : privatekey) (msg : bytes) (CL : list nat * list nat) : bytes :=
  enc3 P (ssig E P (sk_data sk) (pk_ciphertext (sk_pk sk)) (pk_plaintext (sk_pk sk)) msg (fst CL) (snd CL)).

Definition schal (fuel : nat) (sk : privatekey) (msg : bytes) : res (list nat * list nat) :=
  expandChallengeHash E P fuel (shash E P (sk_data sk) (pk_ciphertext (sk_pk sk)) (pk_plaintext (sk_pk sk)) msg).

Lemma sign3_eq fuel sk msg buf len : sk_params sk = p -> sk_wf sk -> len <= length buf ->
  picnic_sign E fuel sk msg buf len =
  if eqb_bytes (senc E P (sk_data sk) (pk_plaintext (sk_pk sk))) (firstn (stateSizeBytes P) (pk_ciphertext (sk_pk sk)))
  then CL <- schal fuel sk msg ;;
       let s := sbytes sk msg CL in
       Ok (if len <? length s then (false, buf, len) else (true, s ++ skipn (length s) buf, length s))
  else Ok (false, buf, len).
Proof.
  intros Hp (Wsk & Wpt & Wpub) Hl. unfold picnic_sign. rewrite Hp, HP, H3. cbn [negb].
  destruct (block_len _ Wsk) as [L1 _]. destruct (block_len _ Wpt) as [L2 _]. destruct (block_len _ Wpub) as [_ L3].
  rewrite (sign_picnic3_ok E P _ _ _ msg HP3 HE HC HI L1 (proj2 Wsk) L2 (proj2 Wpt) L3).
  destruct (eqb_bytes _ _); [|reflexivity].
  unfold schal. pose proof (expandChallengeHash_ok E P HP3 HE fuel
     (shash E P (sk_data sk) (pk_ciphertext (sk_pk sk)) (pk_plaintext (sk_pk sk)) msg)) as Hx.
  rewrite (shash_len E P _ _ _ msg HE) in Hx. specialize (Hx (Nat.le_refl _)).
  destruct (expandChallengeHash E P fuel _) as [CL| | |]; cbn [okf] in Hx; try contradiction; [|reflexivity].
  cbn [bind].
  destruct (ssig_raw E P HP3 _ _ _ msg HE L1 L2 L3 _ _ Hx) as [Hr _].
  rewrite (serialize2_ok P HP3 _ buf len Hr Hl). cbn [bind].
  unfold sbytes. cbv zeta. destruct (len <? _); reflexivity.
Qed.

Lemma schal_wf fuel sk msg : okf (schal fuel sk msg) (fun CL => chal_wf P (fst CL) (snd CL)).
Proof.
  unfold schal. apply (expandChallengeHash_ok E P HP3 HE). rewrite (shash_len E P _ _ _ msg HE). auto.
Qed.

Lemma sbytes_len sk msg CL : sk_wf sk -> chal_wf P (fst CL) (snd CL) ->
  length (sbytes sk msg CL) = slen P (fst CL) (snd CL) /\
  length (sbytes sk msg CL) <= N.to_nat (picnic_signature_size p).
Proof.
  intros (Wsk & Wpt & Wpub) Hw.
  destruct (block_len _ Wsk) as [L1 _]. destruct (block_len _ Wpt) as [L2 _]. destruct (block_len _ Wpub) as [_ L3].
  destruct (ssig_raw E P HP3 _ _ _ msg HE L1 L2 L3 _ _ Hw) as [Hr _].
  unfold sbytes. rewrite (enc3_len P HP3 _ Hr). cbn [ssig g_challengeC g_challengeP].
  split; [reflexivity|]. apply (slen_le p P); auto.
Qed.

Lemma sign3_rel sk : sk_wf sk ->
  eqb_bytes (senc E P (sk_data sk) (pk_plaintext (sk_pk sk))) (firstn (stateSizeBytes P) (pk_ciphertext (sk_pk sk))) = true
  <-> lowmc_relation E P (sk_data sk) (pk_plaintext (sk_pk sk)) (pk_ciphertext (sk_pk sk)).
Proof.
  intros (Wsk & Wpt & Wpub). destruct (block_len _ Wpub) as [_ L3]. apply senc_rel; auto. apply Wpub.
Qed.

(** ** picnic_verify *)
Lemma verify3_value fuel pk msg s : pk_params pk = p -> pk_wf pk -> sig3_raw P s -> all_pads P s = true ->
  expandChallengeHash E P fuel (g_challengeHash s) = Ok (g_challengeC s, g_challengeP s) ->
  picnic_verify E fuel pk msg (enc3 P s) = Ok (vresult E P s (pk_ciphertext pk) (pk_plaintext pk) msg).
Proof.
  intros Hp (Wpt & Wpub) Hr Ha Hx. unfold picnic_verify. rewrite Hp, HP, H3. cbn [negb].
  rewrite (deser_enc P HP3 E fuel s Hr Hx), Ha. cbn [bind].
  destruct (block_len _ Wpt) as [L2 _]. destruct (block_len _ Wpub) as [_ L3].
  apply verify_picnic3_ok; auto; [apply (raw_wf P); auto|apply Wpt].
Qed.

Lemma verify3_cases fuel pk sg : pk_params pk = p -> pk_wf pk -> bytes_ok sg ->
  (forall msg, picnic_verify E fuel pk msg sg = Ok false) \/
  ((forall msg, picnic_verify E fuel pk msg sg = NoFuel) /\ digestSizeBytes P <= length sg /\
     expandChallengeHash E P fuel (firstn (digestSizeBytes P) sg) = NoFuel) \/
  (exists s, sig3_raw P s /\ all_pads P s = true /\ sg = enc3 P s /\
     g_challengeHash s = firstn (digestSizeBytes P) sg /\
     expandChallengeHash E P fuel (g_challengeHash s) = Ok (g_challengeC s, g_challengeP s) /\
     deserializeSignature2 E P fuel sg = Ok (Some s) /\
     forall msg, picnic_verify E fuel pk msg sg = Ok (vresult E P s (pk_ciphertext pk) (pk_plaintext pk) msg)).
Proof.
  intros Hp Hpk Hb.
  assert (Hn : forall r, deserializeSignature2 E P fuel sg = r -> (forall s, r <> Ok (Some s)) ->
     forall msg, picnic_verify E fuel pk msg sg = match r with Ok _ => Ok false | UB => UB | Abort => Abort | NoFuel => NoFuel end).
  { intros r Hr Hs msg. unfold picnic_verify. rewrite Hp, HP, H3. cbn [negb]. rewrite Hr.
    destruct r as [[s|]| | |]; try reflexivity. exfalso. eapply Hs. reflexivity. }
  destruct (deser_cases P HP3 E HE fuel sg Hb) as [[_ Hd]|[(Hl & Hx & Hd)|(C & L & Hl & Hx & Hw & Hd)]].
  - left. intros msg. rewrite (Hn _ Hd); [reflexivity|discriminate].
  - right. left. split; [|split; [lia|auto]]. intros msg. rewrite (Hn _ Hd); [reflexivity|discriminate].
  - destruct Hd as [[_ Hd]|(s & Hr & He & HsC & HsP & Hh & Hd)].
    + left. intros msg. rewrite (Hn _ Hd); [reflexivity|discriminate].
    + destruct (all_pads P s) eqn:Ha.
      * right. right. exists s. subst C L. rewrite <- Hh in Hx. repeat (split; [solve [auto]|]). intros msg. rewrite He.
        apply verify3_value; auto.
      * left. intros msg. rewrite (Hn _ Hd); [reflexivity|discriminate].
Qed.

(** ** Completeness *)
Lemma sign_verify3 fuel fuel' sk msg buf len buf' l pk :
  sk_params sk = p -> sk_wf sk -> len <= length buf ->
  picnic_sign E fuel sk msg buf len = Ok (true, buf', l) ->
  pk_wf pk -> pk_params pk = p ->
  firstn (stateSizeBytes P) (pk_ciphertext pk) = firstn (stateSizeBytes P) (pk_ciphertext (sk_pk sk)) ->
  firstn (stateSizeBytes P) (pk_plaintext pk) = firstn (stateSizeBytes P) (pk_plaintext (sk_pk sk)) ->
  fuel <= fuel' ->
  picnic_verify E fuel' pk msg (firstn l buf') = Ok true.
Proof.
  intros Hp Wsk Hl Hs Wpk Hpk Hc Ht Hf. rewrite (sign3_eq fuel sk msg buf len Hp Wsk Hl) in Hs.
  destruct (eqb_bytes _ _) eqn:Er; [|discriminate]. apply eqb_bytes_eq in Er.
  pose proof (schal_wf fuel sk msg) as Hw.
  destruct (schal fuel sk msg) as [CL| | |] eqn:Ex; cbn [bind] in Hs; try discriminate. cbn [okf] in Hw.
  cbv zeta in Hs. destruct (len <? _); [discriminate|]. injection Hs as <- <-.
  rewrite firstn_app, Nat.sub_diag, firstn_all, firstn_O, app_nil_r.
  destruct Wsk as (W1 & W2 & W3).
  destruct (block_len _ W1) as [L1 _]. destruct (block_len _ W2) as [L2 _]. destruct (block_len _ W3) as [_ L3].
  destruct (ssig_raw E P HP3 _ _ _ msg HE L1 L2 L3 _ _ Hw) as [Hr Ha].
  unfold sbytes. rewrite (verify3_value fuel' pk msg); auto.
  - rewrite (vresult_ext E P HP3 _ _ _ _ _ msg Hc Ht). f_equal.
    pose proof (verify_ssig E P _ _ _ msg HP3 HE HC HI L1 L2 (proj2 W2) L3 _ _ Hw Er) as Hv.
    rewrite (verify_picnic3_ok E P _ _ _ msg HP3 HE HC HI) in Hv; auto; [|apply (raw_wf P); auto|apply W2].
    injection Hv as Hv. exact Hv.
  - cbn [ssig g_challengeHash g_challengeC g_challengeP]. rewrite <- surjective_pairing.
    eapply expandChallengeHash_mono; [exact Hf|exact Ex].
Qed.

(** ** Fuel *)
Lemma sign3_fuel fuel fuel' sk msg buf len r :
  sk_params sk = p -> sk_wf sk -> len <= length buf -> fuel <= fuel' ->
  picnic_sign E fuel sk msg buf len = Ok r -> picnic_sign E fuel' sk msg buf len = Ok r.
Proof.
  intros Hp Wsk Hl Hf. rewrite !sign3_eq by auto. destruct (eqb_bytes _ _); auto.
  destruct (schal fuel sk msg) as [CL| | |] eqn:Ex; cbn [bind]; try discriminate.
  unfold schal in *. rewrite (expandChallengeHash_mono E P _ _ _ _ Hf Ex). auto.
Qed.

Lemma deser_fuel fuel fuel' sg r : fuel <= fuel' ->
  deserializeSignature2 E P fuel sg = Ok r -> deserializeSignature2 E P fuel' sg = Ok r.
Proof.
  intros Hf. unfold deserializeSignature2. destruct (length sg <? _); auto.
  destruct (slice sg 0 _) as [h| | |]; cbn [bind]; auto. destruct (slice sg _ _) as [sa| | |]; cbn [bind]; auto.
  destruct (expandChallengeHash E P fuel h) as [CL| | |] eqn:Ex; cbn [bind]; try discriminate.
  rewrite (expandChallengeHash_mono E P _ _ _ _ Hf Ex). auto.
Qed.

Lemma verify3_fuel fuel fuel' pk msg sg r : pk_params pk = p -> fuel <= fuel' ->
  picnic_verify E fuel pk msg sg = Ok r -> picnic_verify E fuel' pk msg sg = Ok r.
Proof.
  intros Hp Hf. unfold picnic_verify. rewrite Hp, HP, H3. cbn [negb].
  destruct (deserializeSignature2 E P fuel sg) as [d| | |] eqn:Ed; cbn [bind]; try discriminate.
  rewrite (deser_fuel fuel fuel' sg _ Hf Ed). auto.
Qed.

(** ** Unused bytes of the keys *)
Lemma sign3_same fuel sk sk' msg buf len : sk_params sk = p -> sk_wf sk -> sk_wf sk' -> sk_same P sk sk' ->
  len <= length buf -> picnic_sign E fuel sk msg buf len = picnic_sign E fuel sk' msg buf len.
Proof.
  intros Hp W W' (S1 & S2 & S3 & S4) Hl. rewrite (sign3_eq fuel sk msg) by auto.
  rewrite (sign3_eq fuel sk' msg) by (auto; congruence). unfold block in *.
  assert (Hc : schal fuel sk msg = schal fuel sk' msg).
  { unfold schal. f_equal. exact (shash_ext E P HP3 _ _ _ _ _ _ msg S2 S4 S3). }
  assert (Hb : forall CL, sbytes sk msg CL = sbytes sk' msg CL).
  { intros CL. unfold sbytes. f_equal. exact (ssig_ext E P HP3 _ _ _ _ _ _ msg S2 S4 S3 _ _). }
  rewrite Hc. clear Hc. rewrite (senc_ext E P HP3 _ _ _ _ S2 S3), S4.
  destruct (eqb_bytes _ _); [|reflexivity].
  destruct (schal fuel sk' msg) as [CL| | |]; cbn [bind]; [rewrite Hb|..]; reflexivity.
Qed.

Lemma verify3_same fuel pk pk' msg sg : pk_params pk = p -> pk_wf pk -> pk_wf pk' -> pk_same P pk pk' ->
  bytes_ok sg -> picnic_verify E fuel pk msg sg = picnic_verify E fuel pk' msg sg.
Proof.
  intros Hp W W' (S1 & S2 & S3) Hb. unfold block in *.
  assert (Hp' : pk_params pk' = p) by congruence.
  unfold picnic_verify. rewrite Hp, Hp', HP, H3. cbn [negb].
  pose proof (deser_cases P HP3 E HE fuel sg Hb) as Hd.
  destruct (deserializeSignature2 E P fuel sg) as [d| | |]; cbn [bind]; [|reflexivity..].
  destruct d as [s|]; [|reflexivity].
  assert (Hr : sig3_raw P s).
  { destruct Hd as [[_ Hd]|[(_ & _ & Hd)|(C & L & _ & _ & _ & Hd)]]; try discriminate.
    destruct Hd as [[_ Hd]|(s' & Hr & _ & _ & _ & _ & Hd)]; [discriminate|].
    destruct (all_pads P s'); [|discriminate]. injection Hd as ->. exact Hr. }
  clear Hd.
  destruct W as [Wpt Wpub], W' as [Wpt' Wpub'].
  destruct (block_len _ Wpt) as [L2 _]. destruct (block_len _ Wpub) as [_ L3].
  destruct (block_len _ Wpt') as [L2' _]. destruct (block_len _ Wpub') as [_ L3'].
  apply (raw_wf P) in Hr.
  rewrite !(verify_picnic3_ok E P) by (auto; first [apply Wpt|apply Wpt']).
  f_equal. apply vresult_ext; auto.
Qed.

(** ** Safety *)
Lemma sign3_safe fuel sk msg buf len : sk_params sk = p -> sk_wf sk -> len <= length buf ->
  safe (picnic_sign E fuel sk msg buf len).
Proof.
  intros Hp W Hl. rewrite sign3_eq by auto. destruct (eqb_bytes _ _); [|exact I].
  pose proof (schal_wf fuel sk msg) as Hw. destruct (schal fuel sk msg); cbn [okf] in Hw; try contradiction; exact I.
Qed.

Lemma verify3_safe fuel pk msg sg : pk_params pk = p -> pk_wf pk -> bytes_ok sg ->
  safe (picnic_verify E fuel pk msg sg).
Proof.
  intros Hp W Hb. destruct (verify3_cases fuel pk sg Hp W Hb) as [H|[[H _]|(s & _ & _ & _ & _ & _ & _ & H)]];
    rewrite H; exact I.
Qed.

(** ** What the signer returns *)
Lemma sign3_result fuel sk msg buf len b buf' l : sk_params sk = p -> sk_wf sk -> len <= length buf ->
  picnic_sign E fuel sk msg buf len = Ok (b, buf', l) ->
  (b = true /\ lowmc_relation E P (sk_data sk) (pk_plaintext (sk_pk sk)) (pk_ciphertext (sk_pk sk)) /\
   l <= len /\ l <= N.to_nat (picnic_signature_size p) /\ length buf' = length buf /\ skipn l buf' = skipn l buf) \/
  (b = false /\ buf' = buf /\ l = len /\
   (lowmc_relation E P (sk_data sk) (pk_plaintext (sk_pk sk)) (pk_ciphertext (sk_pk sk)) ->
    len < N.to_nat (picnic_signature_size p))).
Proof.
  intros Hp W Hl. rewrite sign3_eq by auto. rewrite <- (sign3_rel sk W).
  destruct (eqb_bytes _ _).
  2:{ intros [= <- <- <-]. right. repeat (split; [auto|]). discriminate. }
  pose proof (schal_wf fuel sk msg) as Hw. destruct (schal fuel sk msg) as [CL| | |]; cbn [bind]; try discriminate.
  cbn [okf] in Hw. destruct (sbytes_len sk msg CL W Hw) as [_ Hm]. cbv zeta.
  destruct (Nat.ltb_spec len (length (sbytes sk msg CL))) as [Hlt|Hge]; intros [= <- <- <-].
  - right. repeat (split; [auto|]). lia.
  - left. split; [auto|]. split; [auto|]. split; [lia|]. split; [lia|]. split.
    + rewrite app_length, skipn_length. lia.
    + rewrite skipn_app, skipn_all, Nat.sub_diag, skipn_O. reflexivity.
Qed.

End A.

