(** Proofs of the ZKB++ properties, in the form used by PropertiesPicnic1.v. *)

From Coq Require Import List NArith Arith Bool Lia ZifyBool ZifyNat ZifyN.
From Verif Require Import Base Params Env Spec LowMC Picnic1 Api ApiSpec SigSpec BaseFacts ParamFacts
  ApiFacts LowMCFacts LowMCInj Hint ZkbMpc Zkb ZkbRound ZkbSign ZkbChal ZkbCodec ZkbTop ZkbApi.
Import ListNotations.

Lemma trit_at_chalv c i : trit_at c i = chalv c i.
Proof. unfold trit_at, chalv. lia. Qed.

Lemma uninit_constants E u P : constants_ok E P -> constants_ok (with_uninit E u) P.
Proof. exact (fun H => H). Qed.

Lemma pk_wf_parts pk : pk_wf pk -> arr (pk_ciphertext pk) /\ arr (pk_plaintext pk).
Proof. intros [H1 H2]. split; auto. Qed.

Lemma C01_pf E u P fuel fuel' sk pk msg buf len buf' l :
  get_param_set (sk_params sk) = Some P -> is_picnic3 (sk_params sk) = false ->
  env_bytes_ok E -> env_bytes_ok (with_uninit E u) -> constants_ok E P ->
  sk_wf sk -> padding_zero P (sk_data sk) -> pk_wf pk -> pk_of P sk pk ->
  len <= length buf -> fuel <= fuel' ->
  picnic_sign E fuel sk msg buf len = Ok (true, buf', l) ->
  picnic_verify (with_uninit E u) fuel' pk msg (firstn l buf') = Ok true.
Proof.
  intros HP H3 HE HE' HC Hsk Hpad Hpk (K1 & K2 & K3) Hlen Hf Hs.
  pose proof (picnic_sign_outcome E P fuel sk msg buf len HP H3 HE HC Hsk Hlen) as Ho.
  rewrite Hs in Ho. destruct Ho as (Hrel & _ & ts & Hts & Htl & Htf & -> & -> & Hwf).
  rewrite firstn_blit0 by auto.
  set (pk0 := mkPk (sk_params sk) (pk_plaintext (sk_pk sk)) (pk_ciphertext (sk_pk sk))).
  pose proof Hsk as (Wsk & Wpk).
  pose proof (get_param_set_wfP1 _ _ HP H3) as HP1.
  pose proof (sign_pad_ok E P HP1 HE (sk_data sk) (pk_ciphertext (sk_pk sk))
    (pk_plaintext (sk_pk sk)) msg (chal_of P ts) Wsk Hpad) as Hpo.
  rewrite <- (app_nil_r (sig_bytes _ _ _ _ _ _ _)). unfold sig_bytes.
  rewrite (verify_value (with_uninit E u) P _ HP H3 HE' HC) by auto.
  unfold verify_result.
  rewrite (ver_input_ext (with_uninit E u) P HP1 HE' HC _ _ _ _ _
    (pk_ciphertext (sk_pk sk)) (pk_plaintext (sk_pk sk))); auto; try apply Hpk; try apply Wpk.
  change (ver_input (with_uninit E u) P) with (ver_input E P).
  change (trits (with_uninit E u) P) with (trits E P).
  change (chal_hash (with_uninit E u) P) with (chal_hash E P).
  rewrite (ver_sign_input E P HP1 HE HC); auto; try apply Wpk.
  - rewrite (trits_fuel E P fuel _ _ ts fuel' Hts Hf). rewrite eqb_bytes_refl. reflexivity.
  - intros k Hk. apply (chalv_chal_of P ts k); auto.
Qed.

Lemma C03_pf E P fuel sk msg buf len :
  get_param_set (sk_params sk) = Some P -> is_picnic3 (sk_params sk) = false ->
  env_bytes_ok E -> constants_ok E P -> sk_wf sk -> len <= length buf ->
  (~ lowmc_relation E P (sk_data sk) (pk_plaintext (sk_pk sk)) (pk_ciphertext (sk_pk sk)) ->
     picnic_sign E fuel sk msg buf len = Ok (false, buf, len)) /\
  (lowmc_relation E P (sk_data sk) (pk_plaintext (sk_pk sk)) (pk_ciphertext (sk_pk sk)) ->
     N.to_nat (picnic_signature_size (sk_params sk)) <= len ->
     picnic_sign E fuel sk msg buf len = NoFuel \/
     exists buf' l, picnic_sign E fuel sk msg buf len = Ok (true, buf', l)).
Proof.
  intros HP H3 HE HC Hsk Hlen.
  pose proof (picnic_sign_outcome E P fuel sk msg buf len HP H3 HE HC Hsk Hlen) as Ho.
  rewrite (signature_size_eq _ _ HP H3).
  unfold sign_outcome in Ho. cbv zeta in Ho.
  destruct (picnic_sign E fuel sk msg buf len) as [[[[|] b] l]| | |]; try contradiction.
  - split; [tauto|]. intros _ _. right. eauto.
  - destruct Ho as (-> & -> & Ho). split; [auto|]. intros R L. exfalso.
    destruct Ho as [Ho|(_ & _ & Ho)]; [contradiction|lia].
  - destruct Ho as [R _]. split; [contradiction|auto].
Qed.

Lemma sign_length E P fuel sk msg buf len buf' l :
  get_param_set (sk_params sk) = Some P -> is_picnic3 (sk_params sk) = false ->
  env_bytes_ok E -> constants_ok E P -> sk_wf sk -> len <= length buf ->
  picnic_sign E fuel sk msg buf len = Ok (true, buf', l) ->
  l + (if is_UR (transf P) then 0 else stateSizeBytes P * zero_rounds P (firstn l buf')) =
  N.to_nat (picnic_signature_size (sk_params sk)) /\
  N.to_nat (picnic_signature_size (sk_params sk)) <= len.
Proof.
  intros HP H3 HE HC Hsk Hlen Hs.
  pose proof (get_param_set_wfP1 _ _ HP H3) as HP1.
  pose proof (picnic_sign_outcome E P fuel sk msg buf len HP H3 HE HC Hsk Hlen) as Ho.
  rewrite Hs in Ho. destruct Ho as (Hrel & Hge & ts & Hts & Htl & Htf & -> & -> & Hwf).
  rewrite (signature_size_eq _ _ HP H3). split; [|auto].
  rewrite firstn_blit0 by auto. unfold sig_bytes in *.
  set (cb := chal_of P ts) in *. set (salt := sig_salt _ _ _ _ _ _) in *.
  set (os := sign_opening _ _ _ _ _ _ _) in *.
  pose proof (length_enc P cb salt os Hwf) as Hl. rewrite (bytesRequired_eq P HP1).
  rewrite <- Hl. f_equal. destruct (is_UR (transf P)); auto. f_equal.
  unfold zero_rounds, count0. f_equal. apply filter_ext_in. intros k Hk. apply in_seq in Hk.
  rewrite trit_at_chalv. f_equal. apply (chalv_firstn P); [apply Hwf| |lia].
  unfold enc. symmetry. apply firstn_exact. apply Hwf.
Qed.

Lemma C04_pf E P fuel sk msg buf len :
  get_param_set (sk_params sk) = Some P -> is_picnic3 (sk_params sk) = false ->
  env_bytes_ok E -> constants_ok E P -> sk_wf sk -> len <= length buf ->
  N.to_nat (picnic_signature_size (sk_params sk)) <= len ->
  match picnic_sign E fuel sk msg buf len with
  | Ok (true, _, l) => l <= N.to_nat (picnic_signature_size (sk_params sk))
  | Ok (false, _, _) => ~ lowmc_relation E P (sk_data sk) (pk_plaintext (sk_pk sk)) (pk_ciphertext (sk_pk sk))
  | NoFuel => True
  | _ => False
  end.
Proof.
  intros HP H3 HE HC Hsk Hlen Hsz.
  pose proof (picnic_sign_outcome E P fuel sk msg buf len HP H3 HE HC Hsk Hlen) as Ho.
  destruct (picnic_sign E fuel sk msg buf len) as [[[[|] b] l]| | |] eqn:Hs; try contradiction; auto.
  - pose proof (sign_length E P fuel sk msg buf len b l HP H3 HE HC Hsk Hlen Hs). lia.
  - destruct Ho as (_ & _ & [Ho|(_ & _ & Ho)]); auto. rewrite (signature_size_eq _ _ HP H3) in Hsz. lia.
Qed.

Lemma C05_pf E P fuel sk msg buf len b buf' l :
  get_param_set (sk_params sk) = Some P -> is_picnic3 (sk_params sk) = false ->
  env_bytes_ok E -> constants_ok E P -> sk_wf sk -> len <= length buf ->
  picnic_sign E fuel sk msg buf len = Ok (b, buf', l) ->
  (b = true -> l <= len /\ length buf' = length buf /\ skipn l buf' = skipn l buf) /\
  (b = false -> buf' = buf /\ l = len).
Proof.
  intros HP H3 HE HC Hsk Hlen Hs.
  pose proof (picnic_sign_outcome E P fuel sk msg buf len HP H3 HE HC Hsk Hlen) as Ho.
  destruct b; split; try discriminate; intros _.
  - pose proof (sign_length E P fuel sk msg buf len _ _ HP H3 HE HC Hsk Hlen Hs) as [L1 L2].
    rewrite Hs in Ho. destruct Ho as (Hrel & Hge & ts & Hts & Htl & Htf & E1 & E2 & Hwf).
    split; [lia|]. split.
    + rewrite E1, length_blit_list; auto. rewrite <- E2. simpl. lia.
    + rewrite E1, E2. unfold blit_list. cbn [Nat.add firstn app]. rewrite skipn_exact; auto.
  - rewrite Hs in Ho. destruct Ho as (-> & -> & _). auto.
Qed.

(** C34 and C12 for signing. *)
Lemma sign_uninit E u P fuel sk msg buf len :
  get_param_set (sk_params sk) = Some P -> is_picnic3 (sk_params sk) = false ->
  env_bytes_ok E -> env_bytes_ok (with_uninit E u) -> constants_ok E P -> sk_wf sk ->
  len <= length buf ->
  picnic_sign (with_uninit E u) fuel sk msg buf len = picnic_sign E fuel sk msg buf len.
Proof.
  intros HP H3 HE HE' HC Hsk Hlen.
  eapply (sign_outcome_unique E P);
    [exact (picnic_sign_outcome (with_uninit E u) P fuel sk msg buf len HP H3 HE' HC Hsk Hlen)|].
  apply picnic_sign_outcome; auto.
Qed.

Lemma C35_pf E P fuel sk msg buf len :
  get_param_set (sk_params sk) = Some P -> is_picnic3 (sk_params sk) = false ->
  env_bytes_ok E -> constants_ok E P -> sk_wf sk -> len <= length buf ->
  safe (picnic_sign E fuel sk msg buf len).
Proof.
  intros HP H3 HE HC Hsk Hlen.
  pose proof (picnic_sign_outcome E P fuel sk msg buf len HP H3 HE HC Hsk Hlen) as Ho.
  unfold sign_outcome in Ho. cbv zeta in Ho.
  destruct (picnic_sign E fuel sk msg buf len) as [| | |]; try contradiction; exact I.
Qed.

Lemma C15_pf E P fuel pk msg sg :
  get_param_set (pk_params pk) = Some P -> is_picnic3 (pk_params pk) = false ->
  env_bytes_ok E -> constants_ok E P -> pk_wf pk -> bytes_ok sg ->
  (transf P = TRANSFORM_FS \/ N.to_nat (picnic_signature_size (pk_params pk)) <= length sg) ->
  safe (picnic_verify E fuel pk msg sg).
Proof.
  intros HP H3 HE HC Hpk Hsg Htr. pose proof (get_param_set_wfP1 _ _ HP H3) as HP1.
  destruct (verify_cases E P _ HP H3 HE sg Hsg) as [H|[H|[H Hur]]].
  - destruct H as (cb & salt & os & rest & -> & _ & Hwf & Hpad).
    rewrite (verify_value E P _ HP H3 HE HC) by auto. unfold verify_result.
    destruct (trits _ _ _ _ _); exact I.
  - unfold picnic_verify. rewrite HP, H3. cbn [negb]. rewrite H. exact I.
  - exfalso. destruct Htr as [Htr|Htr]; [rewrite Htr in Hur; discriminate|].
    pose proof (deserialize_spec E P HP1 HE sg Hsg) as Hd. rewrite H in Hd. apply Hd.
    intros _. rewrite (signature_size_eq _ _ HP H3), (bytesRequired_eq P HP1) in Htr. exact Htr.
Qed.

(** Accepted signatures stay accepted with any suffix. *)
Lemma C17_pf E P fuel pk msg sg rest :
  get_param_set (pk_params pk) = Some P -> is_picnic3 (pk_params pk) = false ->
  env_bytes_ok E -> constants_ok E P -> pk_wf pk -> bytes_ok sg -> bytes_ok rest ->
  picnic_verify E fuel pk msg sg = Ok true -> picnic_verify E fuel pk msg (sg ++ rest) = Ok true.
Proof.
  intros HP H3 HE HC Hpk Hsg Hr Hv.
  destruct (verify_cases E P _ HP H3 HE sg Hsg) as [H|H].
  - destruct H as (cb & salt & os & rest' & -> & _ & Hwf & Hpad).
    rewrite <- app_assoc. rewrite (verify_value E P _ HP H3 HE HC) in * by auto. exact Hv.
  - exfalso. unfold picnic_verify in Hv. rewrite HP, H3 in Hv. cbn [negb] in Hv.
    destruct H as [H|[H _]]; rewrite H in Hv; discriminate.
Qed.

(** More fuel never changes a result. *)
Lemma sign_fuel E P fuel fuel' sk msg buf len r :
  get_param_set (sk_params sk) = Some P -> is_picnic3 (sk_params sk) = false ->
  env_bytes_ok E -> constants_ok E P -> sk_wf sk -> len <= length buf -> fuel <= fuel' ->
  picnic_sign E fuel sk msg buf len = Ok r -> picnic_sign E fuel' sk msg buf len = Ok r.
Proof.
  intros HP H3 HE HC Hsk Hlen Hf Hs.
  pose proof (picnic_sign_outcome E P fuel sk msg buf len HP H3 HE HC Hsk Hlen) as Ho.
  pose proof (picnic_sign_outcome E P fuel' sk msg buf len HP H3 HE HC Hsk Hlen) as Ho'.
  rewrite Hs in Ho. eapply (sign_outcome_unique E P); [exact Ho'|].
  unfold sign_outcome in Ho |- *. cbv zeta in *. destruct r as [[[|] b] l].
  - destruct Ho as (R & L & ts & Hts & Ho). split; [auto|]. split; [auto|]. exists ts.
    rewrite (trits_fuel E P fuel _ _ ts fuel' Hts Hf). auto.
  - destruct Ho as (-> & -> & Ho). split; [auto|]. split; [auto|].
    destruct Ho as [Ho|(R & N & L)]; [left; auto|]. right. split; [auto|]. split; [|auto].
    destruct (trits E P fuel _ _) as [ts|] eqn:Hts; [|contradiction].
    rewrite (trits_fuel E P fuel _ _ ts fuel' Hts Hf). discriminate.
Qed.

Lemma verify_fuel E P fuel fuel' pk msg sg r :
  get_param_set (pk_params pk) = Some P -> is_picnic3 (pk_params pk) = false ->
  env_bytes_ok E -> constants_ok E P -> pk_wf pk -> bytes_ok sg -> fuel <= fuel' ->
  picnic_verify E fuel pk msg sg = Ok r -> picnic_verify E fuel' pk msg sg = Ok r.
Proof.
  intros HP H3 HE HC Hpk Hsg Hf Hv.
  destruct (verify_cases E P _ HP H3 HE sg Hsg) as [H|H].
  - destruct H as (cb & salt & os & rest' & -> & _ & Hwf & Hpad).
    rewrite (verify_value E P _ HP H3 HE HC) in * by auto. unfold verify_result in *.
    destruct (trits E P fuel _ _) as [ts|] eqn:Hts; [|discriminate].
    rewrite (trits_fuel E P fuel _ _ ts fuel' Hts Hf). exact Hv.
  - unfold picnic_verify in *. rewrite HP, H3 in *. cbn [negb] in *.
    destruct H as [H|[H _]]; rewrite H in *; auto.
Qed.

(** ** C13 *)
Definition opening_of (P : paramset) (c : nat) (pr : proof) : opening :=
  mkOpening (p_seed1 pr) (p_seed2 pr) (p_inputShare pr) (p_communicatedBits pr) (p_view3Commitment pr)
            (firstn (G_len P (prv c)) (p_view3UnruhG pr)).

Lemma opening_of_wf P c pr : wfP1 P -> proof_wf P c pr ->
  opening_wf P c (opening_of P c pr) /\ proof_is P c pr (opening_of P c pr).
Proof.
  intros HP1 (H1 & H2 & H3 & H4 & H5 & H6 & H7 & H8). unfold opening_of. split.
  - unfold opening_wf. cbn [o_seed1 o_seed2 o_in o_comm o_c3 o_g3]. repeat (split; [solve [auto]|]).
    split; [|intros _; split; auto]. intros Hur. rewrite firstn_length.
    pose proof (G_len_le P HP1 (prv c) Hur). lia.
  - unfold proof_is. cbn [o_seed1 o_seed2 o_in o_comm o_c3 o_g3]. repeat (split; [solve [auto]|]).
    split; auto.
Qed.

Lemma g_len_eq P c : wfP1 P -> c < 3 -> is_UR (transf P) = true -> g_len P c = G_len P (prv c).
Proof. intros HP1 Hc Hur. unfold g_len. rewrite Hur. apply (G_len_prv P HP1); auto. Qed.

Lemma C13_pf E P p s buf len :
  get_param_set p = Some P -> is_picnic3 p = false -> env_bytes_ok E -> sig_struct_wf P s ->
  N.to_nat (picnic_signature_size p) <= len -> len <= length buf ->
  exists l buf' s',
    serializeSignature P s buf len = Ok (Some (l, buf')) /\
    deserializeSignature E P (firstn l buf') = Ok (Some s') /\ sig_same P s s'.
Proof.
  intros HP H3 HE (W1 & W2 & W3 & W4) Hsz Hlen. pose proof (get_param_set_wfP1 _ _ HP H3) as HP1.
  set (cb := s_challengeBits s) in *. set (salt := s_salt s) in *.
  set (d := mkProof [] [] [] [] [] []).
  set (os := fun k => opening_of P (chalv cb k) (nth k (s_proofs s) d)).
  assert (Hn : forall k, k < numMPCRounds P -> nth_error (s_proofs s) k = Some (nth k (s_proofs s) d)).
  { intros k Hk. apply nth_error_nth'. lia. }
  assert (Hwf : sig_wf P cb salt os).
  { split; [auto|]. split; [auto|]. intros k Hk. destruct (W4 k _ (Hn k Hk)) as (A & B & _).
    rewrite trit_at_chalv in A, B. split; auto. apply opening_of_wf; auto. }
  assert (His : sig_is P s cb salt os).
  { split; [auto|]. split; [auto|]. split; [auto|]. intros k pr Hk.
    assert (Hkl : k < numMPCRounds P) by (rewrite <- W3; apply nth_error_Some; congruence).
    destruct (W4 k _ Hk) as (A & B & _). rewrite trit_at_chalv in B.
    unfold os. rewrite (nth_error_nth _ _ d Hk). apply opening_of_wf; auto. }
  assert (Hpad : pad_ok P cb os).
  { intros k Hk Hc. destruct (W4 k _ (Hn k Hk)) as (_ & _ & C). rewrite trit_at_chalv in C.
    apply C; auto. }
  rewrite (signature_size_eq _ _ HP H3) in Hsz.
  rewrite (serialize_eq P HP1 s cb salt os buf len Hwf His Hlen).
  replace (len <? serialize_bytesRequired P) with false by (symmetry; apply Nat.ltb_ge; auto).
  pose proof (deserialize_enc E P HP1 HE cb salt os [] Hwf) as Hd. rewrite app_nil_r in Hd.
  destruct (deserializeSignature E P (enc P cb salt os)) as [[s'|]| | |] eqn:Hds;
    cbn [ok] in Hd; try contradiction.
  eexists _, _, s'. split; [reflexivity|]. rewrite firstn_blit0 by auto. split; [exact Hds|].
  destruct Hd as [(S1 & S2 & S3 & S4) _]. split; [auto|]. split; [auto|]. split; [congruence|].
  intros i a b Ha Hb. fold cb. rewrite trit_at_chalv.
  assert (Hi : i < numMPCRounds P) by (rewrite <- W3; apply nth_error_Some; congruence).
  destruct His as (_ & _ & _ & I4). destruct (I4 i a Ha) as (A1 & A2 & A3 & A4 & A5 & A6 & A7).
  destruct (S4 i b Hb) as (B1 & B2 & B3 & B4 & B5 & B6 & B7).
  destruct (W4 i a Ha) as (Hc & _). fold cb in Hc. rewrite trit_at_chalv in Hc.
  unfold proof_same. repeat (split; [congruence|]). split.
  - destruct (is_UR (transf P)) eqn:Hur.
    + rewrite g_len_eq by auto. destruct (A5 eq_refl) as [_ ->]. destruct (B5 eq_refl) as [_ ->]. auto.
    + unfold g_len. rewrite Hur. reflexivity.
  - intros Hc0. rewrite A7, B7; auto.
Qed.

(** ** C22 *)
Lemma C22_pf E P p fuel (pub pt : bytes) (vo cm gs : list (tri bytes)) (chal chal' salt msg : bytes) :
  get_param_set p = Some P -> is_picnic3 p = false ->
  stateSizeBytes P <= length pub -> stateSizeBytes P <= length pt ->
  length salt = saltSizeBytes P ->
  length vo = numMPCRounds P -> length cm = numMPCRounds P -> length gs = numMPCRounds P ->
  (forall t j, In t vo -> j < 3 -> stateSizeBytes P <= length (tget t j)) ->
  (forall t j, In t cm -> j < 3 -> digestSizeBytes P <= length (tget t j)) ->
  (forall t j, In t gs -> j < 3 -> UnruhGWithInputBytes P <= length (tget t j)) ->
  length chal = numBytes (2 * numMPCRounds P) -> bytes_ok chal ->
  length chal' = numBytes (2 * numMPCRounds P) -> bytes_ok chal' ->
  H3 E P fuel pub pt vo cm chal salt msg gs = H3 E P fuel pub pt vo cm chal' salt msg gs /\
  match H3 E P fuel pub pt vo cm chal salt msg gs with
  | Ok c => challenge_wf P c
  | NoFuel => True
  | _ => False
  end.
Proof.
  intros HP Hz Hpub Hpt Hsalt Lv Lc Lg Hv Hc Hg Lch Bch Lch' Bch'.
  pose proof (get_param_set_wfP1 _ _ HP Hz) as HP1.
  pose (d := (([], [], []) : tri bytes)).
  assert (Hh : forall lens (l : list (tri bytes)), length l = numMPCRounds P ->
    (forall t j, In t l -> j < 3 -> lens j <= length (tget t j)) ->
    holds P lens l (fun k j => firstn (lens j) (tget (nth k l d) j))).
  { intros lens l Hl Ht. split; [auto|]. intros k t Hk j Hj. rewrite (nth_error_nth _ _ d Hk).
    split; auto. apply Ht; auto. eapply nth_error_In; eauto. }
  assert (Hs : forall chal, length chal = numBytes (2 * numMPCRounds P) -> bytes_ok chal -> _) by
    exact (fun chal L B => H3_spec E P HP1 fuel pub pt vo cm gs chal salt msg _ _ _
      (Hh (fun _ => stateSizeBytes P) vo Lv Hv) (Hh (fun _ => digestSizeBytes P) cm Lc Hc)
      (fun Hur => Hh (G_len P) gs Lg (fun t j Ht Hj => Nat.le_trans _ _ _ (G_len_le P HP1 j Hur) (Hg t j Ht Hj)))
      Hpub Hpt Hsalt L B).
  pose proof (Hs chal Lch Bch) as H1. pose proof (Hs chal' Lch' Bch') as H2. clear Hs.
  destruct (trits E P fuel _ _) as [ts|].
  - destruct H1 as (Htl & Htf & ->). destruct H2 as (_ & _ & ->). split; [reflexivity|].
    destruct (chal_of_spec P ts) as (A & B & C & D). split; [auto|]. split; [auto|]. split.
    + intros i Hi. rewrite trit_at_chalv. apply (chalv_chal_of P ts i); auto.
    + intros k Hk. apply C. lia.
  - rewrite H1, H2. auto.
Qed.

(** ** C26 *)
Lemma C26_pf E P p (tb : tri bytes) i0 i1 i2 pt slab :
  get_param_set p = Some P -> is_picnic3 p = false -> env_bytes_ok E -> constants_ok E P ->
  length pt = 32 -> bytes_ok pt ->
  (forall b, In b [i0; i1; i2] -> length b = stateSizeBytes P /\ bytes_ok b) ->
  (forall j, j < 3 -> andSizeBytes P <= length (tget tb j)) ->
  24 * stateSizeWords P <= slab ->
  let v b := mkView b (zeros (andSizeBytes P)) (zeros (stateSizeBytes P)) in
  exists w0 w1 w2,
    mpc_LowMC E P tb (v i0, v i1, v i2) pt slab = Ok (w0, w1, w2) /\
    (forall w, In w [w0; w1; w2] -> length (v_outputShare w) = stateSizeBytes P /\
                                    padding_zero P (v_outputShare w)) /\
    forall i, i < stateSizeBits P ->
      xorb (xorb (bit (v_outputShare w0) i) (bit (v_outputShare w1) i)) (bit (v_outputShare w2) i) =
      lowmc_enc (lowmc_of E P) (fun j => xorb (xorb (bit i0 j) (bit i1 j)) (bit i2 j)) (bit pt) i.
Proof.
  intros HP H3 HE HC Lpt Bpt Hin Htb Hsl v. pose proof (get_param_set_wfP1 _ _ HP H3) as HP1.
  pose proof (w1_wfP P HP1) as Hw.
  set (ins := fun j => match j with 0 => i0 | 1 => i1 | _ => i2 end).
  set (tapes := fun j => firstn (andSizeBytes P) (tget tb j)).
  assert (A2 : arr pt) by (split; auto). destruct (arr_len P HP1 _ A2) as [_ Hptl].
  assert (Hi : forall j, j < 3 -> in_wf P (ins j)).
  { intros j Hj. destruct (lt3 j Hj) as [-> | [-> | ->]]; cbn [ins]; split; apply Hin; simpl; auto. }
  assert (Htl : forall j, j < 3 -> length (tapes j) = andSizeBytes P).
  { intros j Hj. unfold tapes. rewrite firstn_length. specialize (Htb j Hj). lia. }
  pose proof (aB_bits P HP1) as Hab.
  pose proof (mpc_LowMC_eq E P HP1 HE HC ins tapes pt tb slab Hsl Hptl Bpt Hi Htl) as He.
  assert (He' : mpc_LowMC E P tb (v i0, v i1, v i2) pt slab = Ok (views_of E P ins tapes pt)).
  { apply He. clear He. intros j Hj. specialize (Htb j Hj). split; [lia|].
    intros q Hq. unfold tapes. rewrite bit_firstn; auto. lia. }
  clear He. rewrite He'. clear He'.
  pose proof (views_of_spec E P HP1 HE HC ins tapes pt Hptl Bpt Hi Htl) as Hv.
  destruct (views_of E P ins tapes pt) as [[w0 w1] w2]. exists w0, w1, w2.
  split; [reflexivity|].
  destruct (Hv 0 ltac:(lia)) as (_ & _ & _ & _ & (L0 & _ & O0) & G0).
  destruct (Hv 1 ltac:(lia)) as (_ & _ & _ & _ & (L1 & _ & O1) & G1).
  destruct (Hv 2 ltac:(lia)) as (_ & _ & _ & _ & (L2 & _ & O2) & G2).
  cbn [tget fst snd ins] in *. split.
  - assert (Hz : forall w, (exists f, forall i, bit (v_outputShare w) i = if i <? stateSizeBits P then f i else false) ->
      padding_zero P (v_outputShare w)).
    { intros w [f Hf] i Hi'. rewrite Hf. replace (i <? stateSizeBits P) with false; auto.
      symmetry. apply Nat.ltb_ge. apply Hi'. }
    intros w [<-|[<-|[<-|[]]]]; (split; [auto|]); apply Hz; eexists; eauto.
  - intros i Hi'. rewrite O0, O1, O2.
    replace (i <? stateSizeBits P) with true by (symmetry; apply Nat.ltb_lt; auto).
    apply (gates3_correct (lowmc_of E P) (bit pt) (bit i0) (bit i1) (bit i2) _ _ _ _ _ _
             (wf_m P Hw) G0 G1 G2 i Hi').
Qed.

(** ** Secret keys with nonzero padding bits *)
Lemma sign_in_padding E P sk pub pt msg cb k i : wfP1 P -> env_bytes_ok E -> arr sk ->
  stateSizeBits P <= i < 8 * stateSizeBytes P ->
  bit (o_in (sign_opening E P sk pub pt msg cb k)) i = bit sk i.
Proof.
  intros HP1 HE Hsk Hi. destruct (arr_len P HP1 _ Hsk) as [Hsk1 Hsk2].
  unfold sign_opening, sr_opening. cbn [o_in].
  set (s := seed_of E P sk pub pt msg k). set (salt := sig_salt E P sk pub pt msg).
  pose proof (sr_in_wf E P HP1 HE s salt k sk 0 Hsk1 (proj2 Hsk) ltac:(lia)) as I0.
  pose proof (sr_in_wf E P HP1 HE s salt k sk 1 Hsk1 (proj2 Hsk) ltac:(lia)) as I1.
  change (sr_in E P s salt k sk 2) with
    (lxor_list (lxor_list (firstn (stateSizeBytes P) sk) (sr_in E P s salt k sk 0)) (sr_in E P s salt k sk 1)).
  rewrite (bit_lxor3 P) by (auto; apply firstn_wf; auto; apply Hsk).
  destruct (party_in_wf E P HP1 HE (s 0) salt k 0 ltac:(lia)) as (_ & _ & Z0).
  destruct (party_in_wf E P HP1 HE (s 1) salt k 1 ltac:(lia)) as (_ & _ & Z1).
  change (sr_in E P s salt k sk 0) with (party_in E P (s 0) salt k 0).
  change (sr_in E P s salt k sk 1) with (party_in E P (s 1) salt k 1).
  rewrite Z0, Z1 by apply Hi. rewrite bit_firstn by apply Hi. destruct (bit sk i); reflexivity.
Qed.

Lemma C36_pf E P fuel fuel' sk pk msg buf len buf' l k :
  get_param_set (sk_params sk) = Some P -> is_picnic3 (sk_params sk) = false ->
  env_bytes_ok E -> constants_ok E P -> sk_wf sk -> ~ padding_zero P (sk_data sk) ->
  pk_wf pk -> pk_params pk = sk_params sk -> len <= length buf ->
  picnic_sign E fuel sk msg buf len = Ok (true, buf', l) ->
  k < numMPCRounds P -> trit_at (firstn l buf') k <> 0 ->
  picnic_verify E fuel' pk msg (firstn l buf') = Ok false.
Proof.
  intros HP H3 HE HC Hsk Hpad Hpk Hp Hlen Hs Hk Ht.
  pose proof (get_param_set_wfP1 _ _ HP H3) as HP1.
  pose proof (picnic_sign_outcome E P fuel sk msg buf len HP H3 HE HC Hsk Hlen) as Ho.
  rewrite Hs in Ho. destruct Ho as (Hrel & Hge & ts & Hts & Htl & Htf & -> & -> & Hwf).
  rewrite firstn_blit0 in Ht |- * by auto. unfold sig_bytes in *.
  set (cb := chal_of P ts) in *. set (salt := sig_salt _ _ _ _ _ _) in *.
  set (os := sign_opening _ _ _ _ _ _ _) in *.
  unfold picnic_verify. rewrite Hp, HP, H3. cbn [negb].
  pose proof (deserialize_enc E P HP1 HE cb salt os [] Hwf) as Hd. rewrite app_nil_r in Hd.
  destruct (deserializeSignature E P _) as [[s|]| | |]; cbn [ok] in Hd; try contradiction; [|reflexivity].
  exfalso. destruct Hd as [_ Hpo]. apply Hpad. intros i Hi.
  rewrite <- (sign_in_padding E P (sk_data sk) (pk_ciphertext (sk_pk sk)) (pk_plaintext (sk_pk sk)) msg cb k i
    HP1 HE (proj1 Hsk) Hi).
  apply Hpo; auto. rewrite trit_at_chalv in Ht. rewrite <- (chalv_firstn P (enc P cb salt os) cb k); auto.
  - apply Hwf.
  - unfold enc. symmetry. apply firstn_exact. apply Hwf.
Qed.
