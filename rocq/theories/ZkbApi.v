(** picnic_sign and picnic_verify for the ZKB++ parameter sets. *)

From Coq Require Import List NArith Arith Bool Lia ZifyBool ZifyNat ZifyN.
From Verif Require Import Base Params Env Spec LowMC Picnic1 Api ApiSpec BaseFacts ParamFacts ApiFacts
  LowMCFacts LowMCInj Hint ZkbMpc Zkb SigSpec ZkbRound ZkbSign ZkbChal ZkbCodec ZkbTop.
Import ListNotations.

(** What picnic_sign does, for a signing environment without regard to uninitialised memory. *)
Definition sig_bytes (E : env) (P : paramset) (sk pub pt msg : bytes) (ts : list N) : bytes :=
  enc P (chal_of P ts) (sig_salt E P sk pub pt msg) (sign_opening E P sk pub pt msg (chal_of P ts)).

Definition sign_outcome (E : env) (P : paramset) (fuel : nat) (sk pub pt msg buf : bytes) (len : nat)
    (r : res (bool * bytes * nat)) : Prop :=
  let ch := trits E P fuel (chal_hash E P (sign_input E P sk pub pt msg)) (numMPCRounds P) in
  match r with
  | Ok (false, b, l) =>
      b = buf /\ l = len /\
      (~ lowmc_relation E P sk pt pub \/
       (lowmc_relation E P sk pt pub /\ ch <> None /\ len < serialize_bytesRequired P))
  | Ok (true, b, l) =>
      lowmc_relation E P sk pt pub /\ serialize_bytesRequired P <= len /\
      exists ts, ch = Some ts /\ length ts = numMPCRounds P /\ Forall (fun t => (t < 3)%N) ts /\
        b = blit_list buf 0 (sig_bytes E P sk pub pt msg ts) /\
        l = length (sig_bytes E P sk pub pt msg ts) /\
        sig_wf P (chal_of P ts) (sig_salt E P sk pub pt msg)
               (sign_opening E P sk pub pt msg (chal_of P ts))
  | NoFuel => lowmc_relation E P sk pt pub /\ ch = None
  | _ => False
  end.

Lemma sign_outcome_unique E P fuel sk pub pt msg buf len r r' :
  sign_outcome E P fuel sk pub pt msg buf len r -> sign_outcome E P fuel sk pub pt msg buf len r' ->
  r = r'.
Proof.
  unfold sign_outcome. cbv zeta.
  destruct r as [[[[|] b] l]| | |]; destruct r' as [[[[|] b'] l']| | |]; try contradiction.
  - intros (_ & _ & ts & H1 & _ & _ & -> & -> & _) (_ & _ & ts' & H1' & _ & _ & -> & -> & _).
    assert (ts = ts') as -> by congruence. reflexivity.
  - intros (R & L & _) (_ & _ & [N|(_ & _ & L')]); [contradiction|lia].
  - intros (R & L & ts & H & _) (_ & H'). congruence.
  - intros (_ & _ & [N|(_ & _ & L')]) (R & L & _); [contradiction|lia].
  - intros (-> & -> & _) (-> & -> & _). reflexivity.
  - intros (_ & _ & [N|(_ & N & L')]) (R & L); contradiction.
  - intros (_ & H') (R & L & ts & H & _). congruence.
  - intros (R & L) (_ & _ & [N|(_ & N & L')]); contradiction.
  - auto.
Qed.

Lemma picnic_sign_outcome E P fuel sk msg buf len :
  get_param_set (sk_params sk) = Some P -> is_picnic3 (sk_params sk) = false ->
  env_bytes_ok E -> constants_ok E P -> sk_wf sk -> len <= length buf ->
  sign_outcome E P fuel (sk_data sk) (pk_ciphertext (sk_pk sk)) (pk_plaintext (sk_pk sk)) msg buf len
    (picnic_sign E fuel sk msg buf len).
Proof.
  intros HP H3 HE HC (Hsk & Hpt & Hpub) Hlen.
  pose proof (get_param_set_wfP1 _ _ HP H3) as HP1.
  unfold picnic_sign. rewrite HP, H3. cbn [negb].
  pose proof (sign_picnic1_spec E P HP1 HE HC fuel _ _ _ msg Hsk Hpub Hpt) as Hs.
  unfold sign_outcome. cbv zeta.
  destruct (sign_picnic1 E P fuel _ _ _ msg) as [[s|]| | |]; try contradiction.
  - destruct Hs as (Hrel & ts & Hts & Htl & Htf & Hwf & His). cbn [bind].
    rewrite (serialize_eq P HP1 s _ _ _ buf len Hwf His Hlen).
    destruct (Nat.ltb_spec len (serialize_bytesRequired P)) as [Hlt|Hge]; cbn [bind].
    + split; [reflexivity|]. split; [reflexivity|]. right. split; [auto|]. split; [congruence|auto].
    + split; [auto|]. split; [auto|]. exists ts. auto 10.
  - cbn [bind]. split; auto.
  - cbn [bind]. exact Hs.
Qed.

(** The size limit announced by picnic_signature_size is the one serializeSignature demands. *)
Lemma signature_size_eq p P : get_param_set p = Some P -> is_picnic3 p = false ->
  N.to_nat (picnic_signature_size p) = serialize_bytesRequired P.
Proof.
  intros HP H3. pose proof (get_param_set_wfP1 _ _ HP H3) as HP1.
  pose proof (w1_wfP P HP1) as Hw. unfold picnic_signature_size, serialize_bytesRequired.
  rewrite HP, H3, (wf_aB P Hw).
  destruct (w1_tr P HP1) as [Ht|Ht]; pose proof (w1_Gwo P HP1) as Hg; rewrite Ht in Hg |- *;
    cbn [is_UR] in *.
  - lia.
  - rewrite Hg, (wf_aB P Hw) by auto. lia.
Qed.

(** ** Reading arbitrary strings *)
Definition ok_some {A} (r : res (option A)) (Q : Prop) : Prop :=
  match r with Ok (Some _) => Q | _ => True end.

Section Read.
Variable E : env.
Variable P : paramset.
Hypothesis HP1 : wfP1 P.
Hypothesis HE : env_bytes_ok E.

Definition same_shape {A} (r r' : res (option (A * nat))) (Q : nat -> Prop) : Prop :=
  match r, r' with
  | Ok None, Ok None => True
  | Ok (Some (_, o)), Ok (Some (_, o')) => o = o' /\ Q o
  | UB, UB => True
  | _, _ => False
  end.

Lemma deserialize_round_shape u cb sg off i :
  env_bytes_ok (with_uninit E u) -> 2 * i + 1 < 8 * length cb -> chalv cb i < 3 ->
  same_shape (deserialize_round E P cb sg off i) (deserialize_round (with_uninit E u) P cb sg off i)
    (fun o => o = off + rnd_len P (chalv cb i) /\ o <= length sg).
Proof.
  intros HE' Hi Hch. unfold deserialize_round. rewrite getChallenge_ok by auto. cbn [bind].
  set (ch := chalv cb i) in *. unfold allocateProof.
  cbn [p_seed1 p_seed2 p_inputShare p_communicatedBits p_view3Commitment p_view3UnruhG].
  assert (Hs : forall o len, (slice sg o len = UB) \/
    (exists x : bytes, slice sg o len = Ok x /\ length x = len /\ o + len <= length sg)).
  { intros o len. unfold slice. destruct (Nat.leb_spec (o + len) (length sg)); [right|left; auto].
    eexists. split; [reflexivity|]. split; [rewrite firstn_length, skipn_length; lia|auto]. }
  destruct (Hs off (digestSizeBytes P)) as [->|(x1 & -> & L1 & B1)]; [exact I|]. cbn [bind].
  rewrite (blit_uninit E HE), (blit_uninit _ HE') by auto. cbn [bind].
  assert (Hg : forall F, env_bytes_ok F ->
    (if is_UR (transf P) then
        let len := if ch =? 0 then UnruhGWithInputBytes P else UnruhGWithoutInputBytes P in
        g <- slice sg (off + digestSizeBytes P) len ;;
        g <- blit (uninit F (site_vproof + 5) i (UnruhGWithInputBytes P)) 0 g ;;
        Ok (g, off + digestSizeBytes P + len)
      else Ok (uninit F (site_vproof + 5) i (UnruhGWithInputBytes P), off + digestSizeBytes P)) =
    if is_UR (transf P) && negb (off + digestSizeBytes P + G_len P (prv ch) <=? length sg)
    then UB else
    Ok (if is_UR (transf P) then
          blit_list (uninit F (site_vproof + 5) i (UnruhGWithInputBytes P)) 0
            (firstn (G_len P (prv ch)) (skipn (off + digestSizeBytes P) sg))
        else uninit F (site_vproof + 5) i (UnruhGWithInputBytes P),
        off + digestSizeBytes P + (if is_UR (transf P) then G_len P (prv ch) else 0))).
  { intros F HF. destruct (is_UR (transf P)) eqn:Hur; cbn [andb].
    - cbv zeta. rewrite (G_len_prv P HP1) by auto. unfold slice.
      destruct (Nat.leb_spec (off + digestSizeBytes P + G_len P (prv ch)) (length sg)); cbn [negb bind]; auto.
      pose proof (G_len_le P HP1 (prv ch) Hur) as Hle.
      pose proof (uninit_len F HF (site_vproof + 5) i (UnruhGWithInputBytes P)) as Hul.
      rewrite blit_ok by (rewrite firstn_length, skipn_length; lia). reflexivity.
    - rewrite Nat.add_0_r. reflexivity. }
  match goal with |- same_shape (bind ?x _) (bind ?y _) _ =>
    let A := fresh "A" in let B := fresh "B" in
    epose proof (Hg E HE : x = _) as A; epose proof (Hg _ HE' : y = _) as B;
    rewrite A, B; clear A B end. clear Hg.
  destruct (is_UR (transf P) && negb _); [exact I|]. cbn [bind].
  set (off1 := off + digestSizeBytes P + (if is_UR (transf P) then G_len P (prv ch) else 0)).
  destruct (Hs off1 (andSizeBytes P)) as [->|(x2 & -> & L2 & B2)]; [exact I|]. cbn [bind].
  rewrite (blit_uninit E HE), (blit_uninit _ HE') by auto. cbn [bind].
  destruct (Hs (off1 + andSizeBytes P) (seedSizeBytes P)) as [->|(x3 & -> & L3 & B3)]; [exact I|]. cbn [bind].
  rewrite (blit_uninit E HE), (blit_uninit _ HE') by auto. cbn [bind].
  destruct (Hs (off1 + andSizeBytes P + seedSizeBytes P) (seedSizeBytes P)) as [->|(x4 & -> & L4 & B4)];
    [exact I|]. cbn [bind].
  rewrite (blit_uninit E HE), (blit_uninit _ HE') by auto. cbn [bind].
  replace ((ch =? 1) || (ch =? 2)) with (negb (ch =? 0))
    by (clear - Hch; destruct (lt3 ch Hch) as [E0 | [E0 | E0]]; rewrite E0; reflexivity).
  unfold rnd_len. destruct (Nat.eqb_spec ch 0) as [Hc0|Hc0]; cbn [negb].
  - cbn [same_shape]. unfold off1. lia.
  - destruct (Hs (off1 + andSizeBytes P + seedSizeBytes P + seedSizeBytes P) (stateSizeBytes P))
      as [->|(x5 & -> & L5 & B5)]; [exact I|]. cbn [bind].
    rewrite (blit_uninit E HE), (blit_uninit _ HE') by auto. cbn [bind].
    destruct (arePaddingBitsZero_P P x5 (w1_wfP P HP1)) as (v & -> & _); [lia|].
    cbn [bind]. destruct v; [|exact I]. cbn [same_shape]. unfold off1. lia.
Qed.

Definition same_kind {A} (r r' : res (option A)) : Prop :=
  match r, r' with
  | Ok None, Ok None => True
  | Ok (Some _), Ok (Some _) => True
  | UB, UB => True
  | _, _ => False
  end.

Lemma deserialize_rounds_shape u cb sg m : forall off i,
  env_bytes_ok (with_uninit E u) -> length cb = numBytes (2 * numMPCRounds P) ->
  i + m <= numMPCRounds P -> (forall k, k < numMPCRounds P -> chalv cb k < 3) -> off <= length sg ->
  same_kind (deserialize_rounds E P m i cb sg off) (deserialize_rounds (with_uninit E u) P m i cb sg off)
  /\ ok_some (deserialize_rounds E P m i cb sg off)
       (off + sum_len P (chalv cb) i m <= length sg).
Proof.
  induction m as [|m IH]; intros off i HE' Hcb Him Hc Hoff; cbn [deserialize_rounds].
  - split; [exact I|]. cbn. lia.
  - pose proof (deserialize_round_shape u cb sg off i HE'
      ltac:(apply (chal_bound P); auto; lia) ltac:(apply Hc; lia)) as Hr.
    destruct (deserialize_round E P cb sg off i) as [[[p o]|]| | |];
      destruct (deserialize_round (with_uninit E u) P cb sg off i) as [[[p' o']|]| | |];
      cbn [same_shape] in Hr; try contradiction; try (split; exact I).
    cbn [bind]. destruct Hr as (<- & Ho & Hle).
    destruct (IH o (S i) HE' Hcb ltac:(lia) Hc Hle) as [K Sm].
    destruct (deserialize_rounds E P m (S i) cb sg o) as [[l|]| | |];
      destruct (deserialize_rounds (with_uninit E u) P m (S i) cb sg o) as [[l'|]| | |];
      cbn [same_kind] in K; try contradiction; try (split; exact I).
    split; [exact I|]. cbn [bind ok_some] in *. unfold sum_len in *. cbn [seq fold_right]. lia.
Qed.

Lemma deserialize_shape u sg :
  env_bytes_ok (with_uninit E u) ->
  same_kind (deserializeSignature E P sg) (deserializeSignature (with_uninit E u) P sg)
  /\ ok_some (deserializeSignature E P sg) (long_enough P sg).
Proof.
  intros HE'. unfold deserializeSignature.
  destruct (Nat.ltb_spec (length sg) (numBytes (2 * numMPCRounds P))) as [|Hl]; [split; exact I|].
  rewrite (computeInputShareSize_eq P) by auto. cbn [bind].
  match goal with |- context [length sg <? ?x] => destruct (Nat.ltb_spec (length sg) x) as [|Hx] end;
    [split; exact I|].
  rewrite slice0_ok by auto. cbn [bind].
  set (cb := firstn (numBytes (2 * numMPCRounds P)) sg).
  assert (Hcb : length cb = numBytes (2 * numMPCRounds P)) by (unfold cb; rewrite firstn_length; lia).
  destruct (isChallengeValid_spec P cb Hcb) as (v & -> & Hv). cbn [bind].
  destruct v; cbn [negb]; [|split; exact I].
  rewrite slice_ok by lia. cbn [bind].
  destruct (deserialize_rounds_shape u cb sg (numMPCRounds P) (numBytes (2 * numMPCRounds P) + saltSizeBytes P)
    0 HE' Hcb ltac:(lia) ltac:(apply Hv; auto) ltac:(lia)) as [K Sm].
  destruct (deserialize_rounds E P _ 0 cb sg _) as [[l|]| | |];
    destruct (deserialize_rounds (with_uninit E u) P _ 0 cb sg _) as [[l'|]| | |];
    cbn [same_kind] in K; try contradiction; try (split; exact I).
  split; [exact I|]. cbn [bind ok_some] in *. intros Hur.
  destruct (sum_len_le P (chalv cb) (numMPCRounds P) 0) as [_ Hs]; [intros; apply Hv; auto; lia|].
  rewrite Hs in Sm by auto. lia.
Qed.

End Read.

(** ** picnic_verify *)
Section Verify.
Variable E : env.
Variable P : paramset.
Variable p : N.
Hypothesis HP : get_param_set p = Some P.
Hypothesis H3 : is_picnic3 p = false.
Hypothesis HE : env_bytes_ok E.
Hypothesis HC : constants_ok E P.
Let HP1 : wfP1 P := get_param_set_wfP1 _ _ HP H3.

Definition verify_result (fuel : nat) (pub pt msg : bytes) (cb salt : bytes) (os : nat -> opening)
  : res bool :=
  match trits E P fuel (chal_hash E P (ver_input E P cb salt os pub pt msg)) (numMPCRounds P) with
  | None => NoFuel
  | Some ts => Ok (eqb_bytes cb (chal_of P ts))
  end.

Lemma verify_value fuel pk msg cb salt os rest :
  pk_params pk = p -> pk_wf pk -> sig_wf P cb salt os -> pad_ok P cb os ->
  picnic_verify E fuel pk msg (enc P cb salt os ++ rest) =
  verify_result fuel (pk_ciphertext pk) (pk_plaintext pk) msg cb salt os.
Proof.
  intros Hp (Hpt & Hpub) Hwf Hpad. unfold picnic_verify. rewrite Hp, HP, H3. cbn [negb].
  pose proof (deserialize_enc E P HP1 HE cb salt os rest Hwf) as Hd.
  destruct (deserializeSignature E P _) as [[s|]| | |]; cbn [ok] in Hd; try contradiction.
  cbn [bind]. destruct Hd as [His _]. apply verify_eq; auto.
Qed.

Lemma verify_cases sg : bytes_ok sg ->
  (exists cb salt os rest, sg = enc P cb salt os ++ rest /\ bytes_ok cb /\ sig_wf P cb salt os /\
     pad_ok P cb os)
  \/ (deserializeSignature E P sg = Ok None)
  \/ (deserializeSignature E P sg = UB /\ is_UR (transf P) = true).
Proof.
  intros Hb.
  pose proof (deserialize_shape E P HP1 HE (uninit E) sg) as Hsh.
  rewrite with_uninit_id in Hsh. destruct (Hsh HE) as [K L]. clear Hsh.
  pose proof (deserialize_spec E P HP1 HE sg Hb) as Hs.
  destruct (deserializeSignature E P sg) as [[s|]| | |]; cbn [same_kind ok_some] in K, L; try contradiction.
  - left. destruct (Hs L) as (cb & salt & os & rest & H1 & H2 & H4 & H5 & _).
    exists cb, salt, os, rest. auto.
  - auto.
  - right. right. split; auto. destruct (is_UR (transf P)) eqn:Hur; auto.
    exfalso. apply Hs. unfold long_enough. congruence.
Qed.

End Verify.

Lemma verify_uninit E P p fuel pk msg sg u :
  get_param_set p = Some P -> is_picnic3 p = false -> env_bytes_ok E ->
  env_bytes_ok (with_uninit E u) -> constants_ok E P -> pk_params pk = p -> pk_wf pk -> bytes_ok sg ->
  picnic_verify (with_uninit E u) fuel pk msg sg = picnic_verify E fuel pk msg sg.
Proof.
  intros HP H3 HE HE' HC Hp Hpk Hsg.
  destruct (verify_cases E P p HP H3 HE sg Hsg) as [H|H].
  - destruct H as (cb & salt & os & rest & -> & _ & Hwf & Hpad).
    rewrite (verify_value E P p HP H3 HE HC) by auto.
    rewrite (verify_value (with_uninit E u) P p HP H3 HE' HC) by auto. reflexivity.
  - unfold picnic_verify. rewrite Hp, HP, H3. cbn [negb].
    destruct (deserialize_shape E P (get_param_set_wfP1 _ _ HP H3) HE u sg HE') as [K _].
    destruct H as [H|[H _]]; rewrite H in K |- *;
      destruct (deserializeSignature (with_uninit E u) P sg) as [[s|]| | |];
      cbn [same_kind] in K; try contradiction; reflexivity.
Qed.

(** ** Completeness *)
Lemma eqb_bytes_refl b : eqb_bytes b b = true.
Proof. induction b; simpl; auto. rewrite N.eqb_refl. auto. Qed.

Lemma sign_verify E P fuel sk msg buf len buf' l pk fuel' rest :
  get_param_set (sk_params sk) = Some P -> is_picnic3 (sk_params sk) = false ->
  env_bytes_ok E -> constants_ok E P -> sk_wf sk -> padding_zero P (sk_data sk) -> len <= length buf ->
  picnic_sign E fuel sk msg buf len = Ok (true, buf', l) ->
  pk_wf pk -> pk_params pk = sk_params sk ->
  pk_ciphertext pk = pk_ciphertext (sk_pk sk) -> pk_plaintext pk = pk_plaintext (sk_pk sk) ->
  fuel <= fuel' ->
  picnic_verify E fuel' pk msg (firstn l buf' ++ rest) = Ok true.
Proof.
  intros HP H3 HE HC Hsk Hpad Hlen Hs Hpk Hp Hpub Hpt Hf.
  pose proof (picnic_sign_outcome E P fuel sk msg buf len HP H3 HE HC Hsk Hlen) as Ho.
  rewrite Hs in Ho. destruct Ho as (Hrel & _ & ts & Hts & Htl & Htf & -> & -> & Hwf).
  destruct Hsk as (Wsk & Wpt & Wpub).
  rewrite firstn_blit0 by auto. unfold sig_bytes.
  rewrite (verify_value E P _ HP H3 HE HC) by
    (auto; apply (sign_pad_ok E P (get_param_set_wfP1 _ _ HP H3) HE); auto).
  unfold verify_result. rewrite Hpub, Hpt.
  rewrite (ver_sign_input E P (get_param_set_wfP1 _ _ HP H3) HE HC); auto.
  - rewrite (trits_fuel E P fuel _ _ ts fuel' Hts Hf). rewrite eqb_bytes_refl. reflexivity.
  - intros k Hk. apply (chalv_chal_of P ts k); auto.
Qed.

(** ** Bytes of the key arrays beyond the block *)
Section Ext.
Variable E : env.
Variable P : paramset.
Hypothesis HP1 : wfP1 P.
Hypothesis HE : env_bytes_ok E.
Hypothesis HC : constants_ok E P.

Definition beq (a b : bytes) : Prop := block P a = block P b.

Lemma beq_bit a b i : beq a b -> i < 8 * stateSizeBytes P -> bit a i = bit b i.
Proof.
  intros H Hi. rewrite <- (bit_firstn a (stateSizeBytes P) i) by auto.
  rewrite <- (bit_firstn b (stateSizeBytes P) i) by auto. unfold beq, block in H. rewrite H. auto.
Qed.

Lemma beq_veq a b : beq a b -> veq (stateSizeBits P) (bit a) (bit b).
Proof.
  intros H i Hi. apply beq_bit; auto. pose proof (wfP_block P (w1_wfP P HP1)).
  pose proof (wf_sB P (w1_wfP P HP1)) as Hs. pose proof (numBytes_spec (stateSizeBits P)). lia.
Qed.

Lemma lowmc_relation_ext sk pt pub sk' pt' pub' :
  beq sk sk' -> beq pt pt' -> beq pub pub' ->
  lowmc_relation E P sk pt pub -> lowmc_relation E P sk' pt' pub'.
Proof.
  intros Hs Hp Hu [H1 H2]. split.
  - intros i Hi. rewrite <- (beq_veq pub pub' Hu i Hi), (H1 i Hi).
    apply (lowmc_enc_ext (lowmc_of E P)); auto; try (apply beq_veq; auto).
    apply (wf_m P (w1_wfP P HP1)).
  - intros i Hi. rewrite <- (beq_bit pub pub' i Hu) by apply Hi. apply H2; auto.
Qed.

Lemma ver_input_ext cb salt os pub pt pub' pt' msg :
  sig_wf P cb salt os -> arr pub -> arr pt -> arr pub' -> arr pt' ->
  beq pub pub' -> beq pt pt' ->
  ver_input E P cb salt os pub pt msg = ver_input E P cb salt os pub' pt' msg.
Proof.
  intros (W1 & W2 & W3) A1 A2 A3 A4 Hu Hp.
  destruct (arr_len P HP1 _ A2) as [_ Hl]. destruct (arr_len P HP1 _ A4) as [_ Hl'].
  assert (Hv : forall k, k < numMPCRounds P ->
    vr_views E P (chalv cb k) (os k) salt k pt = vr_views E P (chalv cb k) (os k) salt k pt').
  { intros k Hk. destruct (W3 k Hk) as [Hc (H1 & H2 & H4 & H5 & H6 & H7 & H8)].
    unfold vr_views. apply ver_of_pt; auto; try apply A2; try apply A4.
    - apply beq_veq; auto.
    - apply share_in_wf; auto. intros Hc2. apply H8. lia.
    - apply share_in_wf; auto; [|apply nxt_lt]. intros Hn. apply H8. intros E0. rewrite E0 in Hn.
      discriminate.
    - apply length_party_tape; auto.
    - apply length_party_tape; auto. }
  unfold ver_input. apply chal_input_ext; auto; intros.
  - unfold vr_out. rewrite Hv by auto. unfold beq, block in Hu. rewrite Hu. reflexivity.
  - unfold vr_commit. rewrite Hv by auto. reflexivity.
  - unfold vr_g. rewrite Hv by auto. reflexivity.
Qed.

Lemma sr_ext s salt k sk pt sk' pt' :
  arr sk -> arr pt -> arr sk' -> arr pt' -> beq sk sk' -> beq pt pt' ->
  sr_in E P s salt k sk = sr_in E P s salt k sk' /\
  sr_views E P s salt k sk pt = sr_views E P s salt k sk' pt'.
Proof.
  intros A1 A2 A3 A4 Hs Hp.
  destruct (arr_len P HP1 _ A2) as [_ Hl]. destruct (arr_len P HP1 _ A4) as [_ Hl'].
  destruct (arr_len P HP1 _ A1) as [Hk _].
  assert (Hi : sr_in E P s salt k sk = sr_in E P s salt k sk').
  { unfold sr_in. unfold beq, block in Hs. rewrite Hs. reflexivity. }
  split; auto. unfold sr_views. rewrite <- Hi. apply views_of_pt; auto; try apply A2; try apply A4.
  - apply beq_veq; auto.
  - intros j Hj. apply sr_in_wf; auto. apply A1.
  - intros j Hj. apply length_party_tape; auto.
Qed.

Lemma sign_ext sk pub pt sk' pub' pt' msg :
  arr sk -> arr pub -> arr pt -> arr sk' -> arr pub' -> arr pt' ->
  beq sk sk' -> beq pub pub' -> beq pt pt' ->
  sign_input E P sk pub pt msg = sign_input E P sk' pub' pt' msg /\
  forall ts, sig_bytes E P sk pub pt msg ts = sig_bytes E P sk' pub' pt' msg ts.
Proof.
  intros A1 A2 A3 A4 A5 A6 Hs Hu Hp.
  assert (Ha : all_seeds E P sk pub pt msg = all_seeds E P sk' pub' pt' msg).
  { unfold all_seeds. unfold beq, block in *. rewrite Hs, Hu, Hp. reflexivity. }
  assert (Hse : forall k j, seed_of E P sk pub pt msg k j = seed_of E P sk' pub' pt' msg k j).
  { intros. unfold seed_of. rewrite Ha. reflexivity. }
  assert (Hsa : sig_salt E P sk pub pt msg = sig_salt E P sk' pub' pt' msg).
  { unfold sig_salt. rewrite Ha. reflexivity. }
  assert (Hse' : forall k, seed_of E P sk pub pt msg k = seed_of E P sk' pub' pt' msg k).
  { intros. unfold seed_of. rewrite Ha. reflexivity. }
  split.
  - assert (Hv : forall k, sr_views E P (seed_of E P sk pub pt msg k) (sig_salt E P sk' pub' pt' msg) k sk pt
      = sr_views E P (seed_of E P sk' pub' pt' msg k) (sig_salt E P sk' pub' pt' msg) k sk' pt').
    { intros k. rewrite Hse'. apply sr_ext; auto. }
    unfold sign_input. cbv zeta. rewrite Hsa. clear Hsa. apply chal_input_ext; [| | |exact Hu|exact Hp].
    + intros k j _ _. unfold sr_out. rewrite Hv. reflexivity.
    + intros k j _ _. unfold sr_commit. rewrite Hv, Hse'. reflexivity.
    + intros _ k j _ _. unfold sr_g. rewrite Hv, Hse'. reflexivity.
  - intros ts. unfold sig_bytes, enc. rewrite Hsa. do 3 f_equal. apply map_ext. intros k.
    unfold sign_opening, sr_opening, sr_commit, sr_g. rewrite Hsa, Hse'.
    destruct (sr_ext (seed_of E P sk' pub' pt' msg k) (sig_salt E P sk' pub' pt' msg) k
                 sk pt sk' pt' A1 A3 A4 A6 Hs Hp) as [-> ->]. reflexivity.
Qed.

End Ext.

Lemma sign_same E P fuel sk sk' msg buf len :
  get_param_set (sk_params sk) = Some P -> is_picnic3 (sk_params sk) = false ->
  env_bytes_ok E -> constants_ok E P -> sk_wf sk -> sk_wf sk' -> sk_same P sk sk' ->
  len <= length buf ->
  picnic_sign E fuel sk msg buf len = picnic_sign E fuel sk' msg buf len.
Proof.
  intros HP H3 HE HC Hsk Hsk' (S1 & S2 & S3 & S4) Hlen.
  pose proof (get_param_set_wfP1 _ _ HP H3) as HP1.
  pose proof (picnic_sign_outcome E P fuel sk msg buf len HP H3 HE HC Hsk Hlen) as Ho.
  rewrite S1 in HP, H3.
  pose proof (picnic_sign_outcome E P fuel sk' msg buf len HP H3 HE HC Hsk' Hlen) as Ho'.
  eapply sign_outcome_unique; [exact Ho|].
  destruct Hsk as (W1 & W2 & W3). destruct Hsk' as (W1' & W2' & W3').
  destruct (sign_ext E P HP1 HE HC _ _ _ _ _ _ msg W1 W3 W2 W1' W3' W2' S2 S4 S3) as [Hi Hb].
  assert (Hrel : lowmc_relation E P (sk_data sk) (pk_plaintext (sk_pk sk)) (pk_ciphertext (sk_pk sk))
     <-> lowmc_relation E P (sk_data sk') (pk_plaintext (sk_pk sk')) (pk_ciphertext (sk_pk sk'))).
  { split; apply (lowmc_relation_ext E P HP1); auto; unfold beq; auto. }
  unfold sign_outcome in *. cbv zeta in *. rewrite Hi.
  destruct (picnic_sign E fuel sk' msg buf len) as [[[[|] b] l]| | |]; try tauto.
  destruct Ho' as (R & L & ts & Hts & Htl & Htf & Hb1 & Hl1 & Hwf).
  split; [tauto|]. split; [auto|]. exists ts. rewrite Hb. repeat (split; [assumption|]).
  assert (Hc3 : forall k, k < numMPCRounds P -> chalv (chal_of P ts) k < 3)
    by (intros k Hk; apply (chalv_chal_of P ts k); auto).
  split; [apply chal_of_spec|]. split; [apply length_sig_salt; auto|].
  intros k Hk. split; [auto|]. apply sign_opening_wf; auto.
Qed.

Lemma verify_same E P fuel pk pk' msg sg :
  get_param_set (pk_params pk) = Some P -> is_picnic3 (pk_params pk) = false ->
  env_bytes_ok E -> constants_ok E P -> pk_wf pk -> pk_wf pk' -> pk_same P pk pk' -> bytes_ok sg ->
  picnic_verify E fuel pk msg sg = picnic_verify E fuel pk' msg sg.
Proof.
  intros HP H3 HE HC (Wpt & Wpub) (Wpt' & Wpub') (S1 & S2 & S3) Hsg.
  pose proof (get_param_set_wfP1 _ _ HP H3) as HP1.
  destruct (verify_cases E P _ HP H3 HE sg Hsg) as [H|H].
  - destruct H as (cb & salt & os & rest & -> & _ & Hwf & Hpad).
    rewrite (verify_value E P _ HP H3 HE HC) by (auto; split; auto).
    rewrite (verify_value E P _ HP H3 HE HC) by (auto; split; auto).
    unfold verify_result.
    rewrite (ver_input_ext E P HP1 HE HC cb salt os _ _ _ _ msg Hwf Wpub Wpt Wpub' Wpt' S3 S2).
    reflexivity.
  - unfold picnic_verify. rewrite <- S1, HP, H3. cbn [negb].
    destruct H as [H|[H _]]; rewrite H; reflexivity.
Qed.
