(** Property theorems: what accepted openings prove about the signer, and what signature bytes bind. *)

From Coq Require Import List NArith Arith Bool.
From Verif Require Import Base Params Env Spec LowMC Picnic3 Api ApiSpec SigSpec P3Spec ZkbppSpec KkwSpec SoundSpec.
From Verif Require Import BaseFacts ParamFacts P3Sound ZkbBind ZkbppProofs ZkbApi ZkbProps Witness ZkbWitness P3Witness SoundWitness.
Import ListNotations.

(** C45: from three accepted answers to one challenge hash that show, between them, the preprocessing of
    a repetition and its online phase with two different unopened parties, one computes a private key
    of the public key, or two different strings with the same hash among those that verification
    hashes.  The key is the masked key of the online phase with the mask of the shown preprocessing
    removed. *)
Theorem C45_openings_give_key : forall E P p sp s1 s2 s3 pub pt msg t q2,
  get_param_set p = Some P -> is_picnic3 p = true -> table2 p = Some sp ->
  env_bytes_ok E -> constants_ok E P -> inverses_ok E P -> block_wf pub -> block_wf pt ->
  sig2_shape P s1 -> sig2_shape P s2 -> sig2_shape P s3 ->
  g_challengeHash s1 = g_challengeHash s2 -> g_challengeHash s1 = g_challengeHash s3 ->
  verify_picnic3 E P s1 pub pt msg = Ok true -> verify_picnic3 E P s2 pub pt msg = Ok true ->
  verify_picnic3 E P s3 pub pt msg = Ok true ->
  t < numMPCRounds P -> ~ In t (g_challengeC s1) -> In t (g_challengeC s2) -> In t (g_challengeC s3) ->
  unopened (g_challengeC s2) (g_challengeP s2) t <> unopened (g_challengeC s3) (g_challengeP s3) t ->
  nth_error (g_proofs s2) t = Some (Some q2) ->
  let str s := string_of E P sp pub pt msg s in
  (exists x, collide E P (place_prefix x) (str s1 x) (str s2 x) \/
             collide E P (place_prefix x) (str s1 x) (str s3 x) \/
             collide E P (place_prefix x) (str s2 x) (str s3 x)) \/
  (forall key, (forall i, i < stateSizeBits P -> bit key i = key_from E P sp s1 (q_input q2) t i) ->
   lowmc_relation E P key pt pub).
Proof. exact C45_pf. Qed.
Print Assumptions C45_openings_give_key.

(** The answers of the signer to three challenges; repetition 0 is challenged in two of them, with the
    first and the last party unopened. *)
Example C45_example : exists P sp s1 s2 s3 q2, get_param_set Picnic3_L5 = Some P /\ table2 Picnic3_L5 = Some sp /\
  env_bytes_ok count_env /\ constants_ok count_env P /\ inverses_ok count_env P /\
  let pub := pk_ciphertext (sk_pk (toy_sk Picnic3_L5)) in
  let pt := pk_plaintext (sk_pk (toy_sk Picnic3_L5)) in
  block_wf pub /\ block_wf pt /\
  sig2_shape P s1 /\ sig2_shape P s2 /\ sig2_shape P s3 /\
  g_challengeHash s1 = g_challengeHash s2 /\ g_challengeHash s1 = g_challengeHash s3 /\
  verify_picnic3 count_env P s1 pub pt [1%N] = Ok true /\ verify_picnic3 count_env P s2 pub pt [1%N] = Ok true /\
  verify_picnic3 count_env P s3 pub pt [1%N] = Ok true /\
  ~ In 0 (g_challengeC s1) /\ In 0 (g_challengeC s2) /\ In 0 (g_challengeC s3) /\
  unopened (g_challengeC s2) (g_challengeP s2) 0 <> unopened (g_challengeC s3) (g_challengeP s3) 0 /\
  nth_error (g_proofs s2) 0 = Some (Some q2).
Proof.
  destruct (get_param_set Picnic3_L5) as [P|] eqn:HP; [|discriminate HP].
  destruct (table2 Picnic3_L5) as [sp|] eqn:Ht; [|discriminate Ht].
  destruct (p3_setup _ P HP) as (H1 & _ & H3 & H4 & (K1 & K2 & K3) & _ & _ & _ & _ & H10 & _).
  destruct (three_openings count_env P _ _ _ _ [1%N] HP eq_refl H1 H3 H4 K1 K3 K2 H10) as (s1 & s2 & s3 & q2 & H).
  exists P, sp, s1, s2, s3, q2.
  exact (conj eq_refl (conj eq_refl (conj H1 (conj H3 (conj H4 (conj K3 (conj K2 H))))))).
Qed.

(** C46: ZKB++ signature bytes accepted for two different messages or public key blocks come with two
    different strings that hash to the same challenge, the one encoded in the signature. *)
Theorem C46_zkb_binding : forall E P p sp fuel fuel' pk pk' msg msg' sg,
  get_param_set p = Some P -> is_picnic3 p = false -> table2 p = Some sp ->
  env_bytes_ok E -> constants_ok E P ->
  pk_params pk = p -> pk_wf pk -> padding_zero P (pk_ciphertext pk) ->
  pk_params pk' = p -> pk_wf pk' -> padding_zero P (pk_ciphertext pk') -> bytes_ok sg ->
  picnic_verify E fuel pk msg sg = Ok true -> picnic_verify E fuel' pk' msg' sg = Ok true ->
  (msg, block P (pk_ciphertext pk), block P (pk_plaintext pk)) <>
  (msg', block P (pk_ciphertext pk'), block P (pk_plaintext pk')) ->
  let X := zkb_string E P sp (pk_ciphertext pk) (pk_plaintext pk) msg sg in
  let Y := zkb_string E P sp (pk_ciphertext pk') (pk_plaintext pk') msg' sg in
  X <> Y /\ exists e, H3 E sp fuel X = Some e /\ H3 E sp fuel' Y = Some e /\
  length e = sp_T sp /\ forall t, t < sp_T sp -> nth t e 0 = encoded_trit sg t.
Proof. exact C46_pf. Qed.
Print Assumptions C46_zkb_binding.

(** With constant hash functions a signature is valid for two messages. *)
Example C46_example : exists P sp sg,
  let E := const_env 85 in let p := Picnic_L1_FS in
  get_param_set p = Some P /\ is_picnic3 p = false /\ table2 p = Some sp /\
  env_bytes_ok E /\ constants_ok E P /\ pk_params (toy_pk p) = p /\ pk_wf (toy_pk p) /\
  padding_zero P (pk_ciphertext (toy_pk p)) /\ bytes_ok sg /\
  picnic_verify E 8 (toy_pk p) [9%N] sg = Ok true /\ picnic_verify E 8 (toy_pk p) [7%N; 7%N] sg = Ok true.
Proof.
  destruct (get_param_set Picnic_L1_FS) as [P|] eqn:HP; [|discriminate HP].
  destruct (zkb_setup 85 _ P eq_refl HP) as (H1 & H2 & H3 & H4 & H5 & H6 & H7 & H8 & H9 & H10 & H11).
  destruct (const_signs 85 _ P [9%N] (or_intror eq_refl) HP eq_refl) as (buf' & l & Hs).
  destruct (table2_conforms _ P HP) as (sp & Ht & _).
  assert (Hpad : padding_zero P (pk_ciphertext (toy_pk Picnic_L1_FS))).
  { intros i Hi. rewrite (beq_bit P _ _ i (proj2 (proj2 H9)) (proj2 Hi)). exact (proj2 H10 i Hi). }
  assert (Hb : bytes_ok (firstn l buf')).
  { refine (zkb_sign_bytes _ _ P 8 _ [9%N] _ _ buf' l HP H5 eq_refl H1 H3 H4 H8 H10 _ Hs). rewrite H11. exact (le_n _). }
  assert (Hv : picnic_verify (const_env 85) 8 (toy_pk Picnic_L1_FS) [9%N] (firstn l buf') = Ok true).
  { refine (C01_pf (const_env 85) (uninit (const_env 85)) P 8 8 (toy_sk Picnic_L1_FS) (toy_pk Picnic_L1_FS) [9%N]
      (zeros (sig_size Picnic_L1_FS)) (sig_size Picnic_L1_FS) buf' l _ _ H1 H1 H3 H4 H8 H6 H9 _ (le_n _) Hs).
    + rewrite H5. exact HP.
    + rewrite H5. reflexivity.
    + rewrite H11. exact (le_n _). }
  exists P, sp, (firstn l buf'). cbv zeta.
  exact (conj HP (conj eq_refl (conj Ht (conj H1 (conj H3 (conj H7 (conj H6 (conj Hpad (conj Hb (conj Hv
    (const_any_message _ P sp 8 _ [9%N] [7%N; 7%N] _ HP eq_refl Ht H3 H1 H7 H6 Hpad Hb Hv))))))))))).
Qed.
