(** Property theorems: Picnic3 signatures. *)

From Coq Require Import List NArith Arith Bool.
From Verif Require Import Base Params Env Spec LowMC Tree Picnic3 Api ApiSpec SigSpec P3Spec.
From Verif Require Import P3Props Witness ZkbWitness P3Witness.
Import ListNotations.

(** C02: what the signer produces the verifier accepts, also when the two runs see different contents
    of uninitialised memory.  Unlike C01 this holds for keys with nonzero padding bits, too. *)
Theorem C02_sign_then_verify : forall E u P fuel fuel' sk pk msg buf len buf' l,
  get_param_set (sk_params sk) = Some P -> is_picnic3 (sk_params sk) = true ->
  env_bytes_ok E -> env_bytes_ok (with_uninit E u) -> constants_ok E P -> inverses_ok E P ->
  sk_wf sk -> pk_wf pk -> pk_of P sk pk -> len <= length buf -> fuel <= fuel' ->
  picnic_sign E fuel sk msg buf len = Ok (true, buf', l) ->
  picnic_verify (with_uninit E u) fuel' pk msg (firstn l buf') = Ok true.
Proof. exact C02_pf. Qed.
Print Assumptions C02_sign_then_verify.

Example C02_example : exists P buf' l,
  let E := count_env in let p := Picnic3_L3 in
  get_param_set (sk_params (toy_sk p)) = Some P /\
  env_bytes_ok E /\ env_bytes_ok (with_uninit E (fun _ _ n => repeat 7%N n)) /\ constants_ok E P /\ inverses_ok E P /\
  sk_wf (toy_sk p) /\ pk_wf (toy_pk p) /\ pk_of P (toy_sk p) (toy_pk p) /\
  picnic_sign E 30 (toy_sk p) [1%N; 2%N] (zeros (sig_size p)) (sig_size p) = Ok (true, buf', l).
Proof.
  destruct (get_param_set Picnic3_L3) as [P|] eqn:HP; [|discriminate HP].
  destruct (p3_setup _ P HP) as (H1 & H2 & H3 & H4 & H5 & H6 & H7 & H8 & H9 & _).
  destruct (count_signs _ P [1%N; 2%N] HP eq_refl ltac:(discriminate) eq_refl) as (buf' & l & Hs).
  exists P, buf', l. cbv zeta. rewrite H6. exact (conj HP (conj H1 (conj H2 (conj H3 (conj H4 (conj H5 (conj H7 (conj H9 Hs)))))))).
Qed.

(** C14: serialising a well-formed signature structure and reading it back; the exact length. *)
Theorem C14_signature_round_trip : forall E P p,
  get_param_set p = Some P -> is_picnic3 p = true -> env_bytes_ok E ->
  forall fuel s buf len, sig2_wf E P fuel s -> len <= length buf ->
  (len < sig2_len P s -> serializeSignature2 P s buf len = Ok None) /\
  (sig2_len P s <= len -> exists buf',
     serializeSignature2 P s buf len = Ok (Some (sig2_len P s, buf')) /\
     length buf' = length buf /\ skipn (sig2_len P s) buf' = skipn (sig2_len P s) buf /\
     deserializeSignature2 E P fuel (firstn (sig2_len P s) buf') = Ok (Some s)).
Proof. exact C14_round_trip_pf. Qed.
Print Assumptions C14_signature_round_trip.

(** C14, converse: an accepted byte string has exactly the length given by its challenge, and
    serialising the structure reproduces it. *)
Theorem C14_accepted_is_canonical : forall E P p,
  get_param_set p = Some P -> is_picnic3 p = true -> env_bytes_ok E ->
  forall fuel sg s, bytes_ok sg -> deserializeSignature2 E P fuel sg = Ok (Some s) ->
  sig2_wf E P fuel s /\ length sg = sig2_len P s /\
  forall buf len, length sg <= len <= length buf ->
    serializeSignature2 P s buf len = Ok (Some (length sg, sg ++ skipn (length sg) buf)).
Proof. exact C14_accepted_pf. Qed.
Print Assumptions C14_accepted_is_canonical.

Example C14_example : exists P sg s, get_param_set Picnic3_L5 = Some P /\ env_bytes_ok count_env /\ bytes_ok sg /\
  deserializeSignature2 count_env P 30 sg = Ok (Some s) /\ sig2_wf count_env P 30 s.
Proof.
  destruct (get_param_set Picnic3_L5) as [P|] eqn:HP; [|discriminate HP].
  destruct (count_deser _ P HP eq_refl) as (sg & s & Hb & Hd). exists P, sg, s.
  exact (conj eq_refl (conj count_env_bytes (conj Hb (conj Hd
    (proj1 (C14_accepted_pf count_env P _ HP eq_refl count_env_bytes 30 sg s Hb Hd)))))).
Qed.

(** C18: signature bytes accepted for two different messages or public key blocks yield a hash collision:
    the two strings hashed by the two verifications. *)
Theorem C18_binding : forall E P p fuel pk pk' msg msg' sg,
  get_param_set p = Some P -> is_picnic3 p = true ->
  env_bytes_ok E -> constants_ok E P -> inverses_ok E P ->
  pk_params pk = p -> pk_wf pk -> pk_params pk' = p -> pk_wf pk' -> bytes_ok sg ->
  picnic_verify E fuel pk msg sg = Ok true -> picnic_verify E fuel pk' msg' sg = Ok true ->
  (msg, block P (pk_ciphertext pk), block P (pk_plaintext pk)) <>
  (msg', block P (pk_ciphertext pk'), block P (pk_plaintext pk')) ->
  let X := p3_transcript E P fuel pk msg sg in
  let Y := p3_transcript E P fuel pk' msg' sg in
  collide E P HASH_PREFIX_NONE X Y /\ hash E P HASH_PREFIX_NONE [X] (digestSizeBytes P) = firstn (digestSizeBytes P) sg.
Proof. exact C18_pf. Qed.
Print Assumptions C18_binding.

Example C18_example : exists P sg, let p := Picnic3_L1 in get_param_set p = Some P /\
  env_bytes_ok count_env /\ constants_ok count_env P /\ inverses_ok count_env P /\
  pk_params (toy_pk p) = p /\ pk_wf (toy_pk p) /\ bytes_ok sg /\
  picnic_verify count_env 30 (toy_pk p) [1%N; 2%N] sg = Ok true /\
  picnic_verify count_env 30 (toy_pk p) [9%N; 2%N] sg = Ok true.
Proof.
  destruct (get_param_set Picnic3_L1) as [P|] eqn:HP; [|discriminate HP].
  destruct (p3_setup _ P HP) as (H1 & H2 & H3 & H4 & H5 & H6 & H7 & H8 & H9 & _).
  destruct (count_two _ P HP eq_refl) as (sg & Hs). exists P, sg. cbv zeta.
  exact (conj HP (conj H1 (conj H3 (conj H4 (conj H8 (conj H7 Hs)))))).
Qed.

(** C22 (Picnic3): the challenge is well formed. *)
Theorem C22_challenge_well_formed_picnic3 : forall E P p fuel h,
  get_param_set p = Some P -> is_picnic3 p = true -> env_bytes_ok E -> digestSizeBytes P <= length h ->
  match expandChallengeHash E P fuel h with
  | Ok (C, L) => chal3_wf P C L
  | NoFuel => True
  | _ => False
  end.
Proof. exact C22_p3_pf. Qed.
Print Assumptions C22_challenge_well_formed_picnic3.

Example C22_picnic3_example : exists P C L, get_param_set Picnic3_L1 = Some P /\
  expandChallengeHash count_env P 30 (cnt 3 (digestSizeBytes P)) = Ok (C, L) /\
  digestSizeBytes P <= length (cnt 3 (digestSizeBytes P)).
Proof.
  destruct (get_param_set Picnic3_L1) as [P|] eqn:HP; [|discriminate HP].
  destruct (count_expands _ P 3 HP eq_refl eq_refl) as ([C L] & H). exists P, C, L.
  rewrite (proj1 (cnt_ok 3 (digestSizeBytes P))). exact (conj eq_refl (conj H (le_n _))).
Qed.

(** C28: after preprocessing, the online evaluation under the masked key accepts exactly the LowMC
    relation, for all tapes. *)
Theorem C28_online_correct : forall E P p tl,
  get_param_set p = Some P -> is_picnic3 p = true ->
  env_bytes_ok E -> constants_ok E P -> inverses_ok E P -> tapes_wf P tl ->
  exists tp mask, computeAuxTape E P (mkTapes tl 0) = Ok (tp, mask) /\ length mask = stateSizeBytes P /\
  forall key mk pt pub, block_wf mk -> block_wf pt -> block_wf pub ->
  (forall i, i < stateSizeBits P -> bit mk i = xorb (bit key i) (bit mask i)) ->
  exists b ms, simulateOnline E P mk tp (allocateMsgs P) pt pub = Ok (b, ms) /\
    (b = true <-> lowmc_relation E P key pt pub).
Proof. exact C28_pf. Qed.
Print Assumptions C28_online_correct.

Example C28_example : exists P, get_param_set Picnic3_L1 = Some P /\ env_bytes_ok count_env /\
  constants_ok count_env P /\ inverses_ok count_env P /\ tapes_wf P (toy_tapes P) /\
  lowmc_relation count_env P (sk_data (toy_sk Picnic3_L1)) (pk_plaintext (sk_pk (toy_sk Picnic3_L1)))
    (pk_ciphertext (sk_pk (toy_sk Picnic3_L1))).
Proof.
  destruct (get_param_set Picnic3_L1) as [P|] eqn:HP; [|discriminate HP].
  destruct (p3_setup _ P HP) as (H1 & H2 & H3 & H4 & H5 & H6 & H7 & H8 & H9 & H10 & _). exists P.
  exact (conj eq_refl (conj H1 (conj H3 (conj H4 (conj (toy_tapes_wf P) H10))))).
Qed.
