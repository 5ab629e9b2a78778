(** Concrete ZKB++ executions: cases meeting the hypotheses of the theorems, and counterexamples. *)

From Coq Require Import List NArith Arith Bool Lia ZifyBool ZifyNat ZifyN.
From Verif Require Import Base Params Env Spec LowMC Picnic1 Api ApiSpec SigSpec BaseFacts ParamFacts
  ApiFacts LowMCFacts LowMCInj Hint ZkbMpc Zkb ZkbRound ZkbSign ZkbChal ZkbCodec ZkbTop ZkbApi ZkbProps
  Witness.
Import ListNotations.

(** A hash function with constant output bytes [x]. *)
Definition const_env (x : N) : env := {|
  xof := fun _ _ n => repeat x n;
  uninit := uninit toy_env;
  LMatrix := LMatrix toy_env;
  LMatrixInv := LMatrixInv toy_env;
  KMatrix := KMatrix toy_env;
  KMatrixInv := KMatrixInv toy_env;
  RConstant := RConstant toy_env
|}.

Lemma const_env_bytes x : byte x -> env_bytes_ok (const_env x).
Proof.
  intros Hx. split; intros; simpl.
  - split; [apply repeat_length|apply bytes_ok_repeat; auto].
  - apply toy_env_bytes.
Qed.

Lemma const_constants x p P : get_param_set p = Some P -> constants_ok (const_env x) P.
Proof. exact (toy_constants_all p P). Qed.

Lemma toy_sk_facts p P : get_param_set p = Some P ->
  sk_params (toy_sk p) = p /\ sk_wf (toy_sk p) /\ padding_zero P (sk_data (toy_sk p)) /\
  (forall x, lowmc_relation (const_env x) P (sk_data (toy_sk p)) (pk_plaintext (sk_pk (toy_sk p)))
     (pk_ciphertext (sk_pk (toy_sk p)))) /\
  pk_wf (toy_pk p) /\ pk_of P (toy_sk p) (toy_pk p).
Proof.
  intros HP. destruct (toy_keys_spec p P HP) as (_ & Hp & Hs & Hpk & Hsk & Hw & Hr & _).
  destruct (toy_padding p P HP) as [[Hz _] _].
  split; [auto|]. split; [auto|]. split; [auto|]. split.
  - intros x. rewrite Hpk. exact Hr.
  - split; [auto|]. split; [congruence|]. rewrite Hpk. auto.
Qed.

Definition const_trits_b (x : N) (p : N) (P : paramset) : bool :=
  is_picnic3 p ||
  match trits (const_env x) P 8 (repeat x (digestSizeBytes P)) (numMPCRounds P) with
  | Some _ => true
  | None => false
  end.

Lemma const_trits x p P : x = 0%N \/ x = 85%N -> get_param_set p = Some P -> is_picnic3 p = false ->
  trits (const_env x) P 8 (repeat x (digestSizeBytes P)) (numMPCRounds P) <> None.
Proof.
  intros Hx HP Hp.
  assert (H : const_trits_b x p P = true).
  { destruct Hx as [-> | ->]; revert HP; apply params_forall; vm_compute; reflexivity. }
  unfold const_trits_b in H. rewrite Hp in H. cbn [orb] in H.
  destruct (trits _ _ _ _ _); congruence.
Qed.

Lemma const_chal_hash x P inp : chal_hash (const_env x) P inp = repeat x (digestSizeBytes P).
Proof. reflexivity. Qed.

Definition sig_size (p : N) : nat := N.to_nat (picnic_signature_size p).

(** Signing succeeds. *)
Lemma const_signs_any x p P sk msg : x = 0%N \/ x = 85%N -> get_param_set p = Some P ->
  is_picnic3 p = false -> sk_params sk = p -> sk_wf sk ->
  lowmc_relation (const_env x) P (sk_data sk) (pk_plaintext (sk_pk sk)) (pk_ciphertext (sk_pk sk)) ->
  exists buf' l,
    picnic_sign (const_env x) 8 sk msg (zeros (sig_size p)) (sig_size p) = Ok (true, buf', l).
Proof.
  intros Hx HP Hp Hs Hw Hr.
  assert (Hb : byte x) by (destruct Hx as [-> | ->]; reflexivity).
  assert (HP' : get_param_set (sk_params sk) = Some P) by (rewrite Hs; auto).
  assert (Hp' : is_picnic3 (sk_params sk) = false) by (rewrite Hs; auto).
  assert (Hl : sig_size p <= length (zeros (sig_size p))) by (rewrite length_zeros; auto).
  destruct (C03_pf (const_env x) P 8 sk msg (zeros (sig_size p)) (sig_size p) HP' Hp'
    (const_env_bytes x Hb) (const_constants x p P HP) Hw Hl) as [_ H].
  destruct (H Hr) as [Hn|Hok]; auto. { rewrite Hs. apply le_n. }
  exfalso.
  pose proof (picnic_sign_outcome (const_env x) P 8 sk msg (zeros (sig_size p)) (sig_size p) HP' Hp'
    (const_env_bytes x Hb) (const_constants x p P HP) Hw Hl) as Ho.
  rewrite Hn in Ho. destruct Ho as [_ Ho]. rewrite const_chal_hash in Ho.
  exact (const_trits x p P Hx HP Hp Ho).
Qed.

Lemma const_signs x p P msg : x = 0%N \/ x = 85%N -> get_param_set p = Some P -> is_picnic3 p = false ->
  exists buf' l,
    picnic_sign (const_env x) 8 (toy_sk p) msg (zeros (sig_size p)) (sig_size p) = Ok (true, buf', l).
Proof.
  intros Hx HP Hp. destruct (toy_sk_facts p P HP) as (Hs & Hw & _ & Hr & _).
  apply (const_signs_any x p P); auto.
Qed.

(** ** Challenge sampling that never ends *)

Lemma ff_good p P : get_param_set p = Some P -> good_pairs (repeat 255%N (digestSizeBytes P)) = [].
Proof.
  intros HP.
  assert (H : match good_pairs (repeat 255%N (digestSizeBytes P)) with [] => true | _ => false end = true).
  { revert HP. apply (params_forall (fun _ P => match good_pairs (repeat 255%N (digestSizeBytes P)) with
      [] => true | _ => false end)). vm_compute. reflexivity. }
  destruct (good_pairs _); [auto|discriminate].
Qed.

Lemma ff_trits p P fuel need : get_param_set p = Some P -> 0 < need ->
  trits (const_env 255) P fuel (repeat 255%N (digestSizeBytes P)) need = None.
Proof.
  intros HP Hn. revert need Hn. induction fuel as [|fuel IH]; intros need Hn; [reflexivity|].
  cbn [trits]. rewrite (ff_good p P HP). cbn [length]. replace (need <=? 0) with false by lia.
  change (hash (const_env 255) P HASH_PREFIX_1 [repeat 255%N (digestSizeBytes P)] (digestSizeBytes P))
    with (repeat 255%N (digestSizeBytes P)).
  rewrite Nat.sub_0_r, IH by auto. reflexivity.
Qed.

Lemma C23_sign_pf p P fuel msg buf len :
  get_param_set p = Some P -> is_picnic3 p = false -> len <= length buf ->
  picnic_sign (const_env 255) fuel (toy_sk p) msg buf len = NoFuel.
Proof.
  intros HP Hp Hl. destruct (toy_sk_facts p P HP) as (Hs & Hw & _ & Hr & _).
  assert (HP' : get_param_set (sk_params (toy_sk p)) = Some P) by (rewrite Hs; auto).
  assert (Hp' : is_picnic3 (sk_params (toy_sk p)) = false) by (rewrite Hs; auto).
  eapply (sign_outcome_unique (const_env 255) P); [apply picnic_sign_outcome; auto|].
  - apply const_env_bytes. reflexivity.
  - apply (const_constants 255 p P HP).
  - split; [apply Hr|]. rewrite const_chal_hash. apply (ff_trits p P); auto.
    apply (w1_T P (get_param_set_wfP1 _ _ HP Hp)).
Qed.

(** ** Reading past the end of a short UR signature *)
Definition ur_short_len (P : paramset) : nat :=
  numBytes (2 * numMPCRounds P) + saltSizeBytes P
  + numMPCRounds P * (2 * seedSizeBytes P + andSizeBytes P + digestSizeBytes P)
  + UnruhGWithoutInputBytes P * numMPCRounds P.

(** A round with challenge 0 is never rejected. *)
Lemma round0_not_rejected E P cb sg off i : chalv cb i = 0 -> 2 * i + 1 < 8 * length cb ->
  deserialize_round E P cb sg off i <> Ok None.
Proof.
  intros Hc Hi. unfold deserialize_round. rewrite getChallenge_ok by auto. cbn [bind]. rewrite Hc.
  cbn [Nat.eqb orb].
  repeat match goal with
  | |- bind ?x _ <> _ => destruct x; cbn [bind]; try discriminate
  | |- (let '(_, _) := ?x in _) <> _ => destruct x
  end.
Qed.

Lemma rounds0_not_rejected E P cb sg m : forall off i,
  (forall k, k < numMPCRounds P -> chalv cb k = 0) -> length cb = numBytes (2 * numMPCRounds P) ->
  i + m <= numMPCRounds P ->
  deserialize_rounds E P m i cb sg off <> Ok None.
Proof.
  induction m as [|m IH]; intros off i Hc Hl Hi; cbn [deserialize_rounds]; [discriminate|].
  pose proof (round0_not_rejected E P cb sg off i (Hc i ltac:(lia)) ltac:(apply (chal_bound P); auto; lia)) as Hr.
  destruct (deserialize_round E P cb sg off i) as [[[pr o]|]| | |]; cbn [bind]; try congruence.
  specialize (IH o (S i) Hc Hl ltac:(lia)).
  destruct (deserialize_rounds E P m (S i) cb sg o) as [[l|]| | |]; cbn [bind]; congruence.
Qed.

Lemma C16_pf E P fuel pk msg sg :
  env_bytes_ok E -> get_param_set (pk_params pk) = Some P -> is_picnic3 (pk_params pk) = false ->
  transf P = TRANSFORM_UR -> bytes_ok sg ->
  (forall k, k < numMPCRounds P -> trit_at sg k = 0) ->
  ur_short_len P <= length sg < sig_size (pk_params pk) ->
  picnic_verify E fuel pk msg sg = UB.
Proof.
  intros HE HP Hp Htr Hsg Hz [Hlo Hhi]. pose proof (get_param_set_wfP1 _ _ HP Hp) as HP1.
  unfold sig_size in Hhi. rewrite (signature_size_eq _ _ HP Hp), (bytesRequired_eq P HP1) in Hhi.
  unfold picnic_verify. rewrite HP, Hp. cbn [negb].
  destruct (verify_cases E P _ HP Hp HE sg Hsg) as [H|[H|[H _]]].
  - exfalso. destruct H as (cb & salt & os & rest & -> & _ & Hwf & _).
    pose proof (length_enc P cb salt os Hwf) as Hl. rewrite Htr in Hl. cbn [is_UR] in Hl.
    rewrite app_length in Hhi. lia.
  - exfalso. revert H. unfold deserializeSignature. unfold ur_short_len in Hlo.
    replace (length sg <? numBytes (2 * numMPCRounds P)) with false by lia.
    rewrite (computeInputShareSize_eq P) by lia. cbn [bind].
    assert (Hi : inputs_len P sg = 0).
    { unfold inputs_len. assert (Hx : forall l, (forall k, In k l -> k < numMPCRounds P) ->
        fold_right (fun k a => (if (chalv sg k =? 1) || (chalv sg k =? 2) then stateSizeBytes P else 0) + a) 0 l = 0).
      { induction l as [|k l IH]; intros Hk; [reflexivity|]. cbn [fold_right].
        rewrite IH by (intros; apply Hk; simpl; auto). rewrite <- trit_at_chalv, Hz; [reflexivity|].
        apply Hk. simpl. auto. }
      apply Hx. intros k Hk. apply in_seq in Hk. lia. }
    rewrite Hi, Htr. cbn [is_UR].
    match goal with |- context [length sg <? ?x] => replace (length sg <? x) with false by lia end.
    rewrite slice0_ok by lia. cbn [bind].
    set (cb := firstn (numBytes (2 * numMPCRounds P)) sg).
    assert (Hcb : length cb = numBytes (2 * numMPCRounds P)) by (unfold cb; rewrite firstn_length; lia).
    assert (Hc0 : forall k, k < numMPCRounds P -> chalv cb k = 0).
    { intros k Hk. rewrite <- (chalv_firstn P sg cb k); auto. rewrite <- trit_at_chalv. auto. }
    destruct (isChallengeValid_spec P cb Hcb) as (v & -> & Hv). cbn [bind].
    destruct v; cbn [negb].
    2:{ assert (true = false); [|discriminate]. symmetry. apply Hv. intros k Hk. rewrite Hc0 by auto. lia. }
    rewrite slice_ok by lia. cbn [bind].
    pose proof (rounds0_not_rejected E P cb sg (numMPCRounds P)
      (numBytes (2 * numMPCRounds P) + saltSizeBytes P) 0 Hc0 Hcb ltac:(lia)) as Hr.
    destruct (deserialize_rounds E P _ 0 cb sg _) as [[l|]| | |]; cbn [bind]; congruence.
  - rewrite H. reflexivity.
Qed.

Lemma zeros_trit len k : trit_at (zeros len) k = 0.
Proof. unfold trit_at. rewrite !bit_zeros. reflexivity. Qed.

Lemma ur_short_lt p P : get_param_set p = Some P -> is_picnic3 p = false -> transf P = TRANSFORM_UR ->
  ur_short_len P < sig_size p.
Proof.
  intros HP Hp Htr. pose proof (get_param_set_wfP1 _ _ HP Hp) as HP1.
  unfold sig_size. rewrite (signature_size_eq _ _ HP Hp), (bytesRequired_eq P HP1).
  unfold ur_short_len, full_len. rewrite Htr. cbn [is_UR].
  rewrite (w1_Gwo P HP1) by (rewrite Htr; auto). pose proof (w1_T P HP1).
  pose proof (wfP_block P (w1_wfP P HP1)). pose proof (wf_n P (w1_wfP P HP1)).
  assert (0 < stateSizeBytes P).
  { rewrite (wf_sB P (w1_wfP P HP1)). pose proof (numBytes_spec (stateSizeBits P)). lia. }
  nia.
Qed.

(** ** Secret keys with nonzero padding bits *)
Definition pad_sk (sk : privatekey) : privatekey :=
  mkSk (sk_params sk) (set_bit (sk_data sk) 130 true) (sk_pk sk).

Lemma pad_facts sk P : get_param_set Picnic_L1_full = Some P -> sk_wf sk ->
  sk_wf (pad_sk sk) /\ ~ padding_zero P (sk_data (pad_sk sk)) /\
  forall E, lowmc_relation E P (sk_data sk) (pk_plaintext (sk_pk sk)) (pk_ciphertext (sk_pk sk)) ->
    lowmc_relation E P (sk_data (pad_sk sk)) (pk_plaintext (sk_pk sk)) (pk_ciphertext (sk_pk sk)).
Proof.
  intros HP [[Hl Hb] Hpk].
  assert (Hn : stateSizeBits P = 129 /\ stateSizeBytes P = 17)
    by (injection HP as <-; split; reflexivity).
  destruct Hn as (Hn & HsB). cbn [pad_sk sk_data sk_pk].
  assert (Hbit : forall i, bit (set_bit (sk_data sk) 130 true) i = if i =? 130 then true else bit (sk_data sk) i).
  { intros i. apply bit_set_bit. rewrite Hl. apply lt_div8. lia. }
  split; [|split].
  - split; [|exact Hpk]. unfold pad_sk; cbn [sk_data]. split; [rewrite length_set_bit; auto|].
    apply bytes_ok_set_bit; auto.
  - intros H. specialize (H 130). rewrite Hbit in H. rewrite Hn, HsB in H.
    specialize (H ltac:(lia)). discriminate H.
  - intros E [Hr Hr2]. split; [|exact Hr2]. intros i Hi. rewrite (Hr i Hi).
    apply (lowmc_enc_ext (lowmc_of E P)); auto.
    + apply (get_param_set_wfP _ _ HP).
    + intros j Hj. rewrite Hbit. change (lm_n (lowmc_of E P)) with (stateSizeBits P) in Hj.
      replace (j =? 130) with false by lia. auto.
    + intros j Hj. reflexivity.
Qed.

Lemma C36_gen P sk pk msg : get_param_set Picnic_L1_full = Some P ->
  sk_params sk = Picnic_L1_full -> pk_params pk = Picnic_L1_full -> sk_pk sk = pk -> sk_wf sk ->
  lowmc_relation (const_env 85) P (sk_data sk) (pk_plaintext (sk_pk sk)) (pk_ciphertext (sk_pk sk)) ->
  exists buf' l,
  picnic_validate_keypair (const_env 85) (Some (pad_sk sk)) (Some pk) = Ok true /\
  picnic_sign (const_env 85) 8 (pad_sk sk) msg (zeros (sig_size Picnic_L1_full)) (sig_size Picnic_L1_full)
    = Ok (true, buf', l) /\
  forall fuel, picnic_verify (const_env 85) fuel pk msg (firstn l buf') = Ok false.
Proof.
  intros HP Hs Hp <- Hsw Hrel.
  destruct (pad_facts sk P HP Hsw) as (Hw & Hnz & Hr). specialize (Hr _ Hrel).
  assert (Hs' : sk_params (pad_sk sk) = Picnic_L1_full) by exact Hs.
  assert (Hb : byte 85) by reflexivity.
  destruct (const_signs_any 85 _ P (pad_sk sk) msg (or_intror eq_refl) HP eq_refl Hs' Hw Hr)
    as (buf' & l & Hsig).
  pose proof (proj2 Hsw) as Hpk.
  exists buf', l. split; [|split; [auto|]].
  - assert (HP' : get_param_set (pk_params (sk_pk sk)) = Some P) by (rewrite Hp; auto).
    pose proof (validate_spec (const_env 85) (const_env_bytes 85 Hb) (pad_sk sk) (sk_pk sk) P HP'
      (const_constants 85 _ P HP) Hw Hpk) as Hv.
    destruct (picnic_validate_keypair _ _ _) as [v| | |]; cbn [ok] in Hv; try contradiction.
    f_equal. apply Hv. split; [congruence|]. exact Hr.
  - intros fuel.
    assert (HP' : get_param_set (sk_params (pad_sk sk)) = Some P) by (rewrite Hs'; auto).
    assert (Hl : sig_size Picnic_L1_full <= length (zeros (sig_size Picnic_L1_full)))
      by (rewrite length_zeros; auto).
    assert (H3 : is_picnic3 (sk_params (pad_sk sk)) = false) by (rewrite Hs'; reflexivity).
    assert (HT : 0 < numMPCRounds P) by (apply (w1_T P); apply (get_param_set_wfP1 _ _ HP); reflexivity).
    assert (Hpp : pk_params (sk_pk sk) = sk_params (pad_sk sk)) by congruence.
    refine (C36_pf (const_env 85) P 8 fuel (pad_sk sk) (sk_pk sk) msg (zeros (sig_size Picnic_L1_full))
      (sig_size Picnic_L1_full) buf' l 0 HP' H3 (const_env_bytes 85 Hb) (const_constants 85 _ P HP)
      Hw Hnz Hpk Hpp Hl Hsig HT _).
    pose proof (picnic_sign_outcome (const_env 85) P 8 (pad_sk sk) msg _ _ HP'
      H3 (const_env_bytes 85 Hb) (const_constants 85 _ P HP) Hw Hl) as Ho.
    rewrite Hsig in Ho. destruct Ho as (_ & _ & ts & Hts & Htl & Htf & -> & -> & Hwf).
    rewrite firstn_blit0 by auto. rewrite trit_at_chalv.
    rewrite (chalv_firstn P _ (chal_of P ts) 0); [|apply Hwf| |auto].
    2:{ unfold sig_bytes, enc. symmetry. apply firstn_exact. apply Hwf. }
    rewrite (proj1 (chalv_chal_of P ts 0 HT Htl Htf)).
    rewrite const_chal_hash in Hts.
    assert (Hc : match trits (const_env 85) P 8 (repeat 85%N (digestSizeBytes P)) (numMPCRounds P) with
                 | Some ts => negb (N.to_nat (nth 0 ts 0%N) =? 0) | None => true end = true).
    { injection HP as <-. vm_compute. reflexivity. }
    rewrite Hts in Hc. intros H0. rewrite H0 in Hc. discriminate.
Qed.

Lemma C36_pack P sk pk msg : get_param_set Picnic_L1_full = Some P ->
  sk_params sk = Picnic_L1_full -> pk_params pk = Picnic_L1_full -> sk_pk sk = pk -> sk_wf sk ->
  lowmc_relation (const_env 85) P (sk_data sk) (pk_plaintext (sk_pk sk)) (pk_ciphertext (sk_pk sk)) ->
  exists sk' pk' buf' l,
  sk_params sk' = Picnic_L1_full /\ sk_wf sk' /\ pk_wf pk' /\
  picnic_validate_keypair (const_env 85) (Some sk') (Some pk') = Ok true /\
  picnic_sign (const_env 85) 8 sk' msg (zeros (sig_size Picnic_L1_full)) (sig_size Picnic_L1_full)
    = Ok (true, buf', l) /\
  forall fuel, picnic_verify (const_env 85) fuel pk' msg (firstn l buf') = Ok false.
Proof.
  intros HP Hs Hp Hpk Hsw Hr.
  destruct (C36_gen P sk pk msg HP Hs Hp Hpk Hsw Hr) as (buf' & l & A & B & C).
  exists (pad_sk sk), pk, buf', l. split; [exact Hs|]. split; [apply (pad_facts _ P HP Hsw)|].
  split; [subst pk; apply Hsw|]. auto.
Qed.

Lemma C36_witness msg : exists sk pk buf' l,
  sk_params sk = Picnic_L1_full /\ sk_wf sk /\ pk_wf pk /\
  picnic_validate_keypair (const_env 85) (Some sk) (Some pk) = Ok true /\
  picnic_sign (const_env 85) 8 sk msg (zeros (sig_size Picnic_L1_full)) (sig_size Picnic_L1_full)
    = Ok (true, buf', l) /\
  forall fuel, picnic_verify (const_env 85) fuel pk msg (firstn l buf') = Ok false.
Proof.
  destruct (get_param_set Picnic_L1_full) as [P|] eqn:HP; [|discriminate HP].
  destruct (toy_sk_facts _ P HP) as (Hs & Hsw & _ & Hr & Hpk & _).
  destruct (toy_keys_spec _ P HP) as (_ & Hp & _ & Hpk' & _).
  exact (C36_pack P _ _ msg HP Hs Hp Hpk' Hsw (Hr 85%N)).
Qed.

(** ** The signer's openings of one round for the three challenges *)
Definition w_seeds (P : paramset) (j : nat) : bytes := repeat (N.of_nat (j + 1)) (seedSizeBytes P).
Definition w_salt (P : paramset) : bytes := zeros (saltSizeBytes P).
Definition w_opening (P : paramset) (sk pt : bytes) (c : nat) : opening :=
  sr_opening toy_env P (w_seeds P) (w_salt P) 0 sk pt c.
Definition w_proof (P : paramset) (sk pt : bytes) (c : nat) : proof :=
  let o := w_opening P sk pt c in
  mkProof (o_seed1 o) (o_seed2 o) (o_in o) (o_comm o) (o_c3 o) (zeros (UnruhGWithInputBytes P)).
Definition w_chal (c : nat) : bytes := match c with 0 => [0%N] | 1 => [128%N] | _ => [64%N] end.

Lemma C27_gen P sk pk : get_param_set Picnic_L1_FS = Some P -> sk_wf sk -> sk_pk sk = pk ->
  padding_zero P (sk_data sk) ->
  lowmc_relation toy_env P (sk_data sk) (pk_plaintext pk) (pk_ciphertext pk) ->
  exists (pr : nat -> proof) vo cm gs wa wb tmp tape,
  block_wf (pk_ciphertext pk) /\ block_wf (pk_plaintext pk) /\ length (w_salt P) = saltSizeBytes P /\
  length tmp = Nat.max (6 * stateSizeBytes P) (stateSizeBytes P + andSizeBytes P) /\
  andSizeBytes P <= length (fst tape) /\ andSizeBytes P <= length (snd tape) /\
  (forall c, c < 3 -> proof_wf P c (pr c)) /\
  (forall c, c < 3 -> 2 * 0 + 1 < 8 * length (w_chal c) /\ trit_at (w_chal c) 0 = c) /\
  (forall c, c < 3 -> verify_round toy_env P 0 (pr c) (w_chal c) (w_salt P)
     (pk_ciphertext pk) (pk_plaintext pk) = Ok (vo, cm, gs c)) /\
  (forall c, c < 3 -> verifyProof toy_env P (pr c) (allocateView P) (allocateView P) c
     (w_salt P) 0 tmp (pk_plaintext pk) tape = Ok (wa c, wb c)).
Proof.
  intros HP [Wsk Wpk] <- Hz Hrel. destruct Wpk as [Wpt Wpub].
  pose proof (get_param_set_wfP1 _ _ HP eq_refl) as HP1.
  assert (Hur : is_UR (transf P) = false) by (injection HP as <-; reflexivity).
  set (pt := pk_plaintext (sk_pk sk)) in *. set (pub := pk_ciphertext (sk_pk sk)) in *.
  destruct (arr_len P HP1 _ Wsk) as [Ls1 _]. destruct (arr_len P HP1 _ Wpt) as [Lp1 Lp2].
  destruct (arr_len P HP1 _ Wpub) as [Lu1 _].
  pose proof toy_env_bytes as HE. pose proof (toy_constants_all _ P HP) as HC.
  set (s := w_seeds P). set (salt := w_salt P).
  assert (Hsl : forall j, j < 3 -> length (s j) = seedSizeBytes P).
  { intros j _. apply repeat_length. }
  assert (Hsalt : length salt = saltSizeBytes P) by apply length_zeros.
  set (o := w_opening P (sk_data sk) pt). set (pr := w_proof P (sk_data sk) pt).
  assert (Hin : forall c, in_wf P (o_in (o c))).
  { intros c. apply (sr_in_wf toy_env P HP1 HE); auto. apply Wsk. }
  assert (Ho : forall c, c < 3 -> opening_wf P c (o c)).
  { intros c Hc. apply (sr_opening_wf toy_env P HP1 HE HC); auto; [apply Wsk|apply Wpt]. }
  assert (Hpi : forall c, proof_is P c (pr c) (o c)).
  { intros c. unfold proof_is. rewrite Hur.
    repeat (split; [first [reflexivity|discriminate]|]). split; [apply (Hin c)|reflexivity]. }
  assert (Hpw : forall c, c < 3 -> proof_wf P c (pr c)).
  { intros c Hc. destruct (Ho c Hc) as (A1 & A2 & A3 & A4 & A5 & _).
    unfold proof_wf. cbn [pr w_proof p_seed1 p_seed2 p_inputShare p_communicatedBits p_view3Commitment p_view3UnruhG].
    repeat split; try assumption; try apply (Hin c); try apply length_zeros. }
  set (f := fun j => sr_out toy_env P s salt 0 (sk_data sk) pt j).
  set (g := fun j => sr_commit toy_env P s salt 0 (sk_data sk) pt j).
  assert (Hvr : forall c, c < 3 -> exists gs, verify_round toy_env P 0 (pr c) (w_chal c) salt pub pt =
    Ok ((f 0, f 1, f 2), (g 0, g 1, g 2), gs)).
  { intros c Hc.
    assert (Hgc : getChallenge (w_chal c) 0 = Ok c)
      by (destruct (lt3 c Hc) as [-> | [-> | ->]]; reflexivity).
    pose proof (verify_round_spec toy_env P HP1 HE HC 0 (pr c) (o c) (w_chal c) c salt pub pt
      Hgc Hc (Ho c Hc) (Hpi c) Hsalt Lp2 (proj2 Wpt) Lu1) as Hv.
    destruct (verify_round _ _ _ _ _ _ _ _) as [[[vo cm] gs]| | |]; cbn [ok] in Hv; try contradiction.
    destruct Hv as (V1 & V2 & _). exists gs.
    assert (Hq : forall j, j < 3 -> tget vo j = f j /\ tget cm j = g j).
    { intros j Hj. rewrite V1, V2 by auto.
      destruct (vr_sr toy_env P HP1 HE HC s salt 0 (sk_data sk) pub pt c j Hsl Ls1 (proj2 Wsk) Hz Lp2 (proj2 Wpt)
        Lu1 (proj2 Wpub) Hrel Hc Hj) as (X & Y & _). auto. }
    destruct (Hq 0 ltac:(lia)) as [A0 B0]. destruct (Hq 1 ltac:(lia)) as [A1 B1].
    destruct (Hq 2 ltac:(lia)) as [A2 B2]. destruct vo as [[a0 a1] a2]. destruct cm as [[b0 b1] b2].
    cbn [tget fst snd] in *. rewrite <- A0, <- A1, <- A2, <- B0, <- B1, <- B2. reflexivity. }
  destruct (Hvr 0 ltac:(lia)) as (g0 & V0). destruct (Hvr 1 ltac:(lia)) as (g1 & V1).
  destruct (Hvr 2 ltac:(lia)) as (g2 & V2).
  exists pr, (f 0, f 1, f 2), (g 0, g 1, g 2), (fun c => match c with 0 => g0 | 1 => g1 | _ => g2 end),
    (fun c => fst (vr_views toy_env P c (o c) salt 0 pt)), (fun c => snd (vr_views toy_env P c (o c) salt 0 pt)),
    (zeros (Nat.max (6 * stateSizeBytes P) (stateSizeBytes P + andSizeBytes P))),
    (zeros (andSizeBytes P), zeros (andSizeBytes P)).
  split; [auto|]. split; [auto|].
  split; [auto|]. split; [apply length_zeros|]. cbn [fst snd]. rewrite length_zeros.
  split; [auto|]. split; [auto|]. split; [auto|]. split.
  { intros c Hc. destruct (lt3 c Hc) as [-> | [-> | ->]]; split; try reflexivity; simpl; lia. }
  split.
  - intros c Hc. destruct (lt3 c Hc) as [-> | [-> | ->]]; assumption.
  - intros c Hc. rewrite <- surjective_pairing.
    apply (verifyProof_eq toy_env P HP1 HE HC c (pr c) (o c)); auto; try apply Wpt;
      try (cbn [dget fst snd]; rewrite length_zeros; auto).
Qed.

Lemma C27_witness : exists P (pr : nat -> proof) vo cm gs wa wb tmp tape,
  get_param_set Picnic_L1_FS = Some P /\
  let pk := toy_pk Picnic_L1_FS in
  block_wf (pk_ciphertext pk) /\ block_wf (pk_plaintext pk) /\ length (w_salt P) = saltSizeBytes P /\
  length tmp = Nat.max (6 * stateSizeBytes P) (stateSizeBytes P + andSizeBytes P) /\
  andSizeBytes P <= length (fst tape) /\ andSizeBytes P <= length (snd tape) /\
  (forall c, c < 3 -> proof_wf P c (pr c)) /\
  (forall c, c < 3 -> 2 * 0 + 1 < 8 * length (w_chal c) /\ trit_at (w_chal c) 0 = c) /\
  (forall c, c < 3 -> verify_round toy_env P 0 (pr c) (w_chal c) (w_salt P)
     (pk_ciphertext pk) (pk_plaintext pk) = Ok (vo, cm, gs c)) /\
  (forall c, c < 3 -> verifyProof toy_env P (pr c) (allocateView P) (allocateView P) c
     (w_salt P) 0 tmp (pk_plaintext pk) tape = Ok (wa c, wb c)).
Proof.
  destruct (get_param_set Picnic_L1_FS) as [P|] eqn:HP; [|discriminate HP].
  destruct (toy_sk_facts _ P HP) as (Hs & Hsw & Hz & _).
  destruct (toy_keys_spec _ P HP) as (_ & Hp & _ & Hpk' & _ & _ & Hrel & _).
  destruct (C27_gen P _ _ HP Hsw Hpk' Hz Hrel) as (pr & vo & cm & gs & wa & wb & tmp & tape & H).
  exists P, pr, vo, cm, gs, wa, wb, tmp, tape. split; [reflexivity|]. exact H.
Qed.

(** ** Bundled hypotheses for the examples *)
Lemma zkb_setup x p P : byte x -> get_param_set p = Some P ->
  env_bytes_ok (const_env x) /\ env_bytes_ok (with_uninit (const_env x) (fun _ _ n => repeat 7%N n)) /\
  constants_ok (const_env x) P /\ sk_wf (toy_sk p) /\ sk_params (toy_sk p) = p /\
  pk_wf (toy_pk p) /\ pk_params (toy_pk p) = p /\
  padding_zero P (sk_data (toy_sk p)) /\ pk_of P (toy_sk p) (toy_pk p) /\
  lowmc_relation (const_env x) P (sk_data (toy_sk p)) (pk_plaintext (sk_pk (toy_sk p)))
    (pk_ciphertext (sk_pk (toy_sk p))) /\
  length (zeros (sig_size p)) = sig_size p.
Proof.
  intros Hx HP. destruct (toy_sk_facts p P HP) as (Hs & Hw & Hz & Hr & Hpw & Hpk).
  split; [apply const_env_bytes; auto|]. split.
  { destruct (const_env_bytes x Hx) as [A B]. split; [exact A|].
    intros. split; [apply repeat_length|]. apply bytes_ok_repeat. reflexivity. }
  split; [apply (const_constants x p P HP)|]. split; [exact Hw|]. split; [exact Hs|].
  split; [exact Hpw|]. split; [destruct Hpk; congruence|]. split; [exact Hz|].
  split; [exact Hpk|]. split; [apply Hr|apply length_zeros].
Qed.

(** A private key with a flipped ciphertext bit: its embedded public key does not fit. *)
Definition flip_sk (sk : privatekey) : privatekey :=
  let ct := pk_ciphertext (sk_pk sk) in
  mkSk (sk_params sk) (sk_data sk)
       (mkPk (pk_params (sk_pk sk)) (pk_plaintext (sk_pk sk)) (set_bit ct 0 (negb (bit ct 0)))).

Lemma flip_sk_facts E p P sk : get_param_set p = Some P -> sk_wf sk ->
  lowmc_relation E P (sk_data sk) (pk_plaintext (sk_pk sk)) (pk_ciphertext (sk_pk sk)) ->
  sk_wf (flip_sk sk) /\ sk_params (flip_sk sk) = sk_params sk /\
  ~ lowmc_relation E P (sk_data (flip_sk sk)) (pk_plaintext (sk_pk (flip_sk sk)))
      (pk_ciphertext (sk_pk (flip_sk sk))).
Proof.
  intros HP (Hd & Hpt & Hl & Hb) [H1 H2]. unfold flip_sk. cbn [sk_data sk_pk sk_params pk_plaintext pk_ciphertext].
  split; [|split; [reflexivity|]].
  - split; [exact Hd|]. split; [exact Hpt|]. cbn [pk_ciphertext sk_pk].
    split; [rewrite length_set_bit; auto|apply bytes_ok_set_bit; auto].
  - intros [C1 _].
    assert (Hn : 0 < stateSizeBits P).
    { assert (Hc : (0 <? stateSizeBits P) = true).
      { revert HP. apply (params_forall (fun _ P => 0 <? stateSizeBits P)). vm_compute. reflexivity. }
      apply Nat.ltb_lt. exact Hc. }
    specialize (H1 0 Hn). specialize (C1 0 Hn). rewrite bit_set_bit in C1 by (rewrite Hl; cbn; lia).
    rewrite Nat.eqb_refl, H1 in C1. destruct (lowmc_enc _ _ _ _); discriminate.
Qed.

Definition zero_proof (P : paramset) : proof :=
  mkProof (zeros (seedSizeBytes P)) (zeros (seedSizeBytes P)) (zeros (stateSizeBytes P))
          (zeros (andSizeBytes P)) (zeros (digestSizeBytes P)) (zeros (UnruhGWithInputBytes P)).
Definition zero_sig (P : paramset) : signature :=
  mkSig (repeat (zero_proof P) (numMPCRounds P))
        (zeros (numBytes (2 * numMPCRounds P))) (zeros (saltSizeBytes P)).

Lemma zero_sig_wf P : sig_struct_wf P (zero_sig P).
Proof.
  unfold sig_struct_wf, zero_sig. cbn [s_challengeBits s_salt s_proofs].
  rewrite !length_zeros, repeat_length. repeat (split; [reflexivity|]).
  intros i pr H. apply nth_error_In, repeat_spec in H. subst pr.
  rewrite zeros_trit. split; [lia|]. split; [|lia].
  unfold proof_wf, zero_proof.
  cbn [p_seed1 p_seed2 p_inputShare p_communicatedBits p_view3Commitment p_view3UnruhG].
  rewrite !length_zeros. repeat split; apply bytes_ok_repeat; reflexivity.
Qed.
