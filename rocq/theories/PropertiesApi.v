(** Property theorems: picnic_sign and picnic_verify for all parameter sets.  The matrix inverses are
    used by the Picnic3 sets only. *)

From Coq Require Import List NArith Arith Bool.
From Verif Require Import Base Params Env Spec LowMC Picnic1 Tree Picnic3 Api ApiSpec SigSpec.
From Verif Require Import AllProps Witness ZkbWitness P3Witness.
Import ListNotations.

(** The hypotheses of the theorems below hold for instance for a Picnic3 and for a Unruh parameter set. *)
Example api_example_picnic3 : exists P buf' l,
  let E := count_env in let sk := toy_sk Picnic3_L1 in let pk := toy_pk Picnic3_L1 in
  get_param_set (sk_params sk) = Some P /\ get_param_set (pk_params pk) = Some P /\
  env_bytes_ok E /\ env_bytes_ok (with_uninit E (fun _ _ n => repeat 7%N n)) /\ constants_ok E P /\ inverses_ok E P /\
  sk_wf sk /\ pk_wf pk /\ transf P <> TRANSFORM_UR /\
  lowmc_relation E P (sk_data sk) (pk_plaintext (sk_pk sk)) (pk_ciphertext (sk_pk sk)) /\
  N.to_nat (picnic_signature_size (sk_params sk)) <= length (zeros (sig_size Picnic3_L1)) /\
  picnic_sign E 30 sk [3%N] (zeros (sig_size Picnic3_L1)) (sig_size Picnic3_L1) = Ok (true, buf', l).
Proof.
  destruct (get_param_set Picnic3_L1) as [P|] eqn:HP; [|discriminate HP].
  destruct (p3_setup _ P HP) as (H1 & H2 & H3 & H4 & H5 & H6 & H7 & H8 & H9 & H10 & H11).
  destruct (count_signs _ P [3%N] HP eq_refl ltac:(discriminate) eq_refl) as (buf' & l & Hs).
  assert (Ht : transf P <> TRANSFORM_UR) by (injection HP as <-; discriminate).
  exists P, buf', l. cbv zeta. rewrite H6, H8, H11.
  exact (conj HP (conj HP (conj H1 (conj H2 (conj H3 (conj H4 (conj H5 (conj H7 (conj Ht (conj H10 (conj (le_n _) Hs))))))))))).
Qed.

Example api_example_zkb : exists P buf' l,
  let E := const_env 85 in let sk := toy_sk Picnic_L3_UR in let pk := toy_pk Picnic_L3_UR in
  get_param_set (sk_params sk) = Some P /\ get_param_set (pk_params pk) = Some P /\
  env_bytes_ok E /\ env_bytes_ok (with_uninit E (fun _ _ n => repeat 7%N n)) /\ constants_ok E P /\
  sk_wf sk /\ pk_wf pk /\
  lowmc_relation E P (sk_data sk) (pk_plaintext (sk_pk sk)) (pk_ciphertext (sk_pk sk)) /\
  N.to_nat (picnic_signature_size (sk_params sk)) <= length (zeros (sig_size Picnic_L3_UR)) /\
  picnic_sign E 8 sk [3%N] (zeros (sig_size Picnic_L3_UR)) (sig_size Picnic_L3_UR) = Ok (true, buf', l).
Proof.
  destruct (get_param_set Picnic_L3_UR) as [P|] eqn:HP; [|discriminate HP].
  destruct (zkb_setup 85 _ P eq_refl HP) as (H1 & H2 & H3 & H4 & H5 & H6 & H7 & H8 & H9 & H10 & H11).
  destruct (const_signs 85 _ P [3%N] (or_intror eq_refl) HP eq_refl) as (buf' & l & Hs).
  exists P, buf', l. cbv zeta. rewrite H5, H7, H11.
  exact (conj HP (conj HP (conj H1 (conj H2 (conj H3 (conj H4 (conj H6 (conj H10 (conj (le_n _) Hs))))))))).
Qed.

(** C03: signing fails exactly on keys that do not satisfy the LowMC relation. *)
Theorem C03_sign_checks_key : forall E P fuel, env_bytes_ok E -> constants_ok E P ->
  forall sk msg buf len,
  get_param_set (sk_params sk) = Some P -> (is_picnic3 (sk_params sk) = true -> inverses_ok E P) ->
  sk_wf sk -> len <= length buf ->
  (~ lowmc_relation E P (sk_data sk) (pk_plaintext (sk_pk sk)) (pk_ciphertext (sk_pk sk)) ->
     picnic_sign E fuel sk msg buf len = Ok (false, buf, len)) /\
  (lowmc_relation E P (sk_data sk) (pk_plaintext (sk_pk sk)) (pk_ciphertext (sk_pk sk)) ->
     N.to_nat (picnic_signature_size (sk_params sk)) <= len ->
     picnic_sign E fuel sk msg buf len = NoFuel \/
     exists buf' l, picnic_sign E fuel sk msg buf len = Ok (true, buf', l)).
Proof. exact all_C03. Qed.
Print Assumptions C03_sign_checks_key.

Example C03_example : exists P sk,
  get_param_set (sk_params sk) = Some P /\ is_picnic3 (sk_params sk) = true /\ sk_wf sk /\
  constants_ok count_env P /\ inverses_ok count_env P /\
  ~ lowmc_relation count_env P (sk_data sk) (pk_plaintext (sk_pk sk)) (pk_ciphertext (sk_pk sk)).
Proof.
  destruct (get_param_set Picnic3_L1) as [P|] eqn:HP; [|discriminate HP].
  destruct (p3_setup _ P HP) as (H1 & H2 & H3 & H4 & H5 & H6 & H7 & H8 & H9 & H10 & H11).
  destruct (flip_sk_facts _ _ P _ HP H5 H10) as (A & B & C).
  exists P, (flip_sk (toy_sk Picnic3_L1)). rewrite B, H6. exact (conj HP (conj eq_refl (conj A (conj H3 (conj H4 C))))).
Qed.

(** C04: with a buffer of the advertised size only an inconsistent key makes signing fail, and the
    length never exceeds the advertised size (nor, by C30, PICNIC_MAX_SIGNATURE_SIZE). *)
Theorem C04_buffer_suffices : forall E P fuel, env_bytes_ok E -> constants_ok E P ->
  forall sk msg buf len,
  get_param_set (sk_params sk) = Some P -> (is_picnic3 (sk_params sk) = true -> inverses_ok E P) ->
  sk_wf sk -> len <= length buf ->
  N.to_nat (picnic_signature_size (sk_params sk)) <= len ->
  match picnic_sign E fuel sk msg buf len with
  | Ok (true, _, l) => l <= N.to_nat (picnic_signature_size (sk_params sk))
  | Ok (false, _, _) =>
      ~ lowmc_relation E P (sk_data sk) (pk_plaintext (sk_pk sk)) (pk_ciphertext (sk_pk sk))
  | NoFuel => True
  | _ => False
  end.
Proof. exact all_C04. Qed.
Print Assumptions C04_buffer_suffices.

(** C05: only the reported bytes of the buffer change. *)
Theorem C05_sign_writes_only_signature : forall E P fuel, env_bytes_ok E -> constants_ok E P ->
  forall sk msg buf len,
  get_param_set (sk_params sk) = Some P -> (is_picnic3 (sk_params sk) = true -> inverses_ok E P) ->
  sk_wf sk -> len <= length buf ->
  forall b buf' l, picnic_sign E fuel sk msg buf len = Ok (b, buf', l) ->
  (b = true -> l <= len /\ length buf' = length buf /\ skipn l buf' = skipn l buf) /\
  (b = false -> buf' = buf /\ l = len).
Proof. exact all_C05. Qed.
Print Assumptions C05_sign_writes_only_signature.

(** C12: array bytes past the block do not influence signing, verification or validation. *)
Theorem C12_sign_ignores_tail : forall E P fuel, env_bytes_ok E -> constants_ok E P ->
  forall sk msg buf len,
  get_param_set (sk_params sk) = Some P -> (is_picnic3 (sk_params sk) = true -> inverses_ok E P) ->
  sk_wf sk -> len <= length buf ->
  forall sk', sk_wf sk' -> sk_same P sk sk' ->
  picnic_sign E fuel sk msg buf len = picnic_sign E fuel sk' msg buf len.
Proof. exact all_sign_same. Qed.
Print Assumptions C12_sign_ignores_tail.

Theorem C12_verify_ignores_tail : forall E P fuel, env_bytes_ok E -> constants_ok E P ->
  forall pk msg sg,
  get_param_set (pk_params pk) = Some P -> (is_picnic3 (pk_params pk) = true -> inverses_ok E P) ->
  pk_wf pk -> bytes_ok sg ->
  forall pk', pk_wf pk' -> pk_same P pk pk' ->
  picnic_verify E fuel pk msg sg = picnic_verify E fuel pk' msg sg.
Proof. exact all_verify_same. Qed.
Print Assumptions C12_verify_ignores_tail.

Theorem C12_validate_ignores_tail : forall E sk sk' pk pk' P,
  env_bytes_ok E -> get_param_set (pk_params pk) = Some P -> constants_ok E P ->
  sk_wf sk -> sk_wf sk' -> pk_wf pk -> pk_wf pk' ->
  sk_params sk = sk_params sk' -> block P (sk_data sk) = block P (sk_data sk') -> pk_same P pk pk' ->
  picnic_validate_keypair E (Some sk) (Some pk) = picnic_validate_keypair E (Some sk') (Some pk').
Proof. exact validate_same. Qed.
Print Assumptions C12_validate_ignores_tail.

Example C12_example : exists P, get_param_set Picnic3_L1 = Some P /\
  let a := mkPk Picnic3_L1 (repeat 5%N 32) (repeat 6%N 32) in
  let b := mkPk Picnic3_L1 (repeat 5%N 17 ++ repeat 9%N 15) (repeat 6%N 17 ++ repeat 8%N 15) in
  pk_wf a /\ pk_wf b /\ pk_same P a b /\ a <> b /\
  let sa := mkSk Picnic3_L1 (repeat 1%N 32) a in
  let sb := mkSk Picnic3_L1 (repeat 1%N 17 ++ repeat 2%N 15) b in
  sk_wf sa /\ sk_wf sb /\ sk_same P sa sb.
Proof. eexists. split; [reflexivity|]. cbv zeta. repeat split; try discriminate; repeat constructor. Qed.

(** C15: verifying an arbitrary byte string makes no access out of bounds and never aborts, for the FS,
    full and Picnic3 sets (for the UR sets if the string has the full signature length; see C16). *)
Theorem C15_verify_safe : forall E P fuel, env_bytes_ok E -> constants_ok E P ->
  forall pk msg sg,
  get_param_set (pk_params pk) = Some P -> (is_picnic3 (pk_params pk) = true -> inverses_ok E P) ->
  pk_wf pk -> bytes_ok sg ->
  transf P <> TRANSFORM_UR \/ N.to_nat (picnic_signature_size (pk_params pk)) <= length sg ->
  safe (picnic_verify E fuel pk msg sg).
Proof. exact all_C15. Qed.
Print Assumptions C15_verify_safe.

(** C23 is false of the code: for a hash function that returns 0xff bytes only, signing never leaves
    the challenge sampling loop, whatever the fuel and the parameter set. *)
Theorem C23_sampling_may_not_end_refuted : forall p P fuel msg buf len,
  get_param_set p = Some P -> len <= length buf ->
  picnic_sign (const_env 255) fuel (toy_sk p) msg buf len = NoFuel.
Proof. exact all_C23. Qed.
Print Assumptions C23_sampling_may_not_end_refuted.

Example C23_example : get_param_set Picnic_L1_FS <> None /\ get_param_set Picnic3_L5 <> None /\
  env_bytes_ok (const_env 255).
Proof. split; [discriminate|]. split; [discriminate|]. exact (const_env_bytes 255 eq_refl). Qed.

(** C23, what does hold: a result once produced does not depend on the fuel. *)
Theorem C23_sign_fuel_irrelevant : forall E P fuel, env_bytes_ok E -> constants_ok E P ->
  forall sk msg buf len,
  get_param_set (sk_params sk) = Some P -> (is_picnic3 (sk_params sk) = true -> inverses_ok E P) ->
  sk_wf sk -> len <= length buf ->
  forall fuel' r, fuel <= fuel' ->
  picnic_sign E fuel sk msg buf len = Ok r -> picnic_sign E fuel' sk msg buf len = Ok r.
Proof. exact all_sign_fuel. Qed.
Print Assumptions C23_sign_fuel_irrelevant.

Theorem C23_verify_fuel_irrelevant : forall E P fuel, env_bytes_ok E -> constants_ok E P ->
  forall pk msg sg,
  get_param_set (pk_params pk) = Some P -> (is_picnic3 (pk_params pk) = true -> inverses_ok E P) ->
  pk_wf pk -> bytes_ok sg ->
  forall fuel' r, fuel <= fuel' ->
  picnic_verify E fuel pk msg sg = Ok r -> picnic_verify E fuel' pk msg sg = Ok r.
Proof. exact all_verify_fuel. Qed.
Print Assumptions C23_verify_fuel_irrelevant.

(** C34: uninitialised memory has no influence. *)
Theorem C34_sign_uninit : forall E P fuel, env_bytes_ok E -> constants_ok E P ->
  forall sk msg buf len,
  get_param_set (sk_params sk) = Some P -> (is_picnic3 (sk_params sk) = true -> inverses_ok E P) ->
  sk_wf sk -> len <= length buf ->
  forall u, env_bytes_ok (with_uninit E u) ->
  picnic_sign (with_uninit E u) fuel sk msg buf len = picnic_sign E fuel sk msg buf len.
Proof. exact all_sign_uninit. Qed.
Print Assumptions C34_sign_uninit.

Theorem C34_verify_uninit : forall E P fuel, env_bytes_ok E -> constants_ok E P ->
  forall pk msg sg,
  get_param_set (pk_params pk) = Some P -> (is_picnic3 (pk_params pk) = true -> inverses_ok E P) ->
  pk_wf pk -> bytes_ok sg ->
  forall u, env_bytes_ok (with_uninit E u) ->
  picnic_verify (with_uninit E u) fuel pk msg sg = picnic_verify E fuel pk msg sg.
Proof. exact all_verify_uninit. Qed.
Print Assumptions C34_verify_uninit.

Theorem C34_validate_uninit : forall E u, env_bytes_ok E -> env_bytes_ok (with_uninit E u) ->
  forall sk pk, (forall P, get_param_set (pk_params pk) = Some P -> constants_ok E P) -> sk_wf sk -> pk_wf pk ->
  picnic_validate_keypair (with_uninit E u) (Some sk) (Some pk) = picnic_validate_keypair E (Some sk) (Some pk).
Proof. exact validate_uninit. Qed.
Print Assumptions C34_validate_uninit.

Theorem C34_keygen_uninit : forall E u, env_bytes_ok E -> env_bytes_ok (with_uninit E u) ->
  forall rng p pk0 sk0, (forall P, get_param_set p = Some P -> constants_ok E P) -> rng_wf rng ->
  picnic_keygen (with_uninit E u) rng p pk0 sk0 = picnic_keygen E rng p pk0 sk0.
Proof. exact keygen_uninit. Qed.
Print Assumptions C34_keygen_uninit.

(** C35: signing never leaves a buffer's bounds and never aborts. *)
Theorem C35_sign_safe : forall E P fuel, env_bytes_ok E -> constants_ok E P ->
  forall sk msg buf len,
  get_param_set (sk_params sk) = Some P -> (is_picnic3 (sk_params sk) = true -> inverses_ok E P) ->
  sk_wf sk -> len <= length buf ->
  safe (picnic_sign E fuel sk msg buf len).
Proof. exact all_C35. Qed.
Print Assumptions C35_sign_safe.
