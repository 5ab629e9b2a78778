(** Property theorems: the code computes the scheme of the specification document. *)

From Coq Require Import List NArith Arith Bool.
From Verif Require Import Base Params Env Spec LowMC Picnic1 Api ApiSpec SigSpec.
From Verif Require Import ZkbppSpec ZkbppProofs ZkbppProofs3 ZkbppProofs4 ZkbApi ZkbProps Witness ZkbWitness.
From Verif Require Import KkwSpec KkwSign KkwVerify P3Witness.
Import ListNotations.

(** C38: a ZKB++ signature consists of exactly the bytes of Section 6 of the specification, as
    written down in ZkbppSpec.v.  [fuel] bounds the number of digests used for the challenge, in
    the code and in the specification. *)
Theorem C38_sign_is_specified : forall E p P sp fuel sk msg buf len,
  get_param_set p = Some P -> sk_params sk = p -> is_picnic3 p = false -> table2 p = Some sp ->
  env_bytes_ok E -> constants_ok E P -> sk_wf sk -> padding_zero P (sk_data sk) ->
  lowmc_relation E P (sk_data sk) (pk_plaintext (sk_pk sk)) (pk_ciphertext (sk_pk sk)) ->
  len <= length buf ->
  picnic_sign E fuel sk msg buf len =
  match zkbpp_sign E sp (spec_lowmc E P sp) (block P (sk_data sk)) (block P (pk_ciphertext (sk_pk sk)))
          (block P (pk_plaintext (sk_pk sk))) msg fuel with
  | None => NoFuel
  | Some sg => if len <? zkbpp_max_size sp then Ok (false, buf, len)
               else Ok (true, sg ++ skipn (length sg) buf, length sg)
  end.
Proof. exact picnic_sign_is. Qed.
Print Assumptions C38_sign_is_specified.

Example C38_example : exists P sp buf' l,
  let E := const_env 85 in let p := Picnic_L3_UR in
  get_param_set p = Some P /\ sk_params (toy_sk p) = p /\ table2 p = Some sp /\
  env_bytes_ok E /\ constants_ok E P /\ sk_wf (toy_sk p) /\ padding_zero P (sk_data (toy_sk p)) /\
  lowmc_relation E P (sk_data (toy_sk p)) (pk_plaintext (sk_pk (toy_sk p))) (pk_ciphertext (sk_pk (toy_sk p))) /\
  picnic_sign E 8 (toy_sk p) [1%N; 2%N] (zeros (sig_size p)) (sig_size p) = Ok (true, buf', l).
Proof.
  destruct (get_param_set Picnic_L3_UR) as [P|] eqn:HP; [|discriminate HP].
  destruct (zkb_setup 85 _ P eq_refl HP) as (H1 & H2 & H3 & H4 & H5 & H6 & H7 & H8 & H9 & H10 & _).
  destruct (const_signs 85 _ P [1%N; 2%N] (or_intror eq_refl) HP eq_refl) as (buf' & l & Hs).
  destruct (table2_conforms _ P HP) as (sp & Ht & _).
  exists P, sp, buf', l. cbv zeta.
  exact (conj HP (conj H5 (conj Ht (conj H1 (conj H3 (conj H4 (conj H8 (conj H10 Hs)))))))).
Qed.

(** C39: picnic_verify decides the verification of Section 6.  For the Unruh sets the code may
    instead read past the end of a signature that the specification rejects (C16). *)
Theorem C39_verify_is_specified : forall E p P sp fuel pk msg sg,
  get_param_set p = Some P -> pk_params pk = p -> is_picnic3 p = false -> table2 p = Some sp ->
  env_bytes_ok E -> constants_ok E P -> pk_wf pk -> padding_zero P (pk_ciphertext pk) ->
  bytes_ok sg ->
  picnic_verify E fuel pk msg sg =
    match zkbpp_verify E sp (spec_lowmc E P sp) fuel (block P (pk_ciphertext pk))
            (block P (pk_plaintext pk)) msg sg with
    | None => NoFuel
    | Some b => Ok b
    end
  \/ (picnic_verify E fuel pk msg sg = UB /\ sp_UR sp = true /\ zkbpp_parse sp sg = None).
Proof. exact picnic_verify_is. Qed.
Print Assumptions C39_verify_is_specified.

Example C39_example : exists P sp sg,
  let E := const_env 85 in let p := Picnic_L1_FS in
  get_param_set p = Some P /\ pk_params (toy_pk p) = p /\ table2 p = Some sp /\ sp_UR sp = false /\
  env_bytes_ok E /\ constants_ok E P /\ pk_wf (toy_pk p) /\
  padding_zero P (pk_ciphertext (toy_pk p)) /\
  picnic_verify E 8 (toy_pk p) [9%N] sg = Ok true.
Proof.
  destruct (get_param_set Picnic_L1_FS) as [P|] eqn:HP; [|discriminate HP].
  destruct (zkb_setup 85 _ P eq_refl HP) as (H1 & H2 & H3 & H4 & H5 & H6 & H7 & H8 & H9 & H10 & H11).
  destruct (const_signs 85 _ P [9%N] (or_intror eq_refl) HP eq_refl) as (buf' & l & Hs).
  destruct (table2_conforms _ P HP) as (sp & Ht & _).
  assert (Hu : sp_UR sp = false) by (injection Ht as <-; reflexivity).
  exists P, sp, (firstn l buf'). cbv zeta.
  refine (conj HP (conj H7 (conj Ht (conj Hu (conj H1 (conj H3 (conj H6 (conj _ _)))))))).
  - intros i Hi. rewrite (beq_bit P _ _ i (proj2 (proj2 H9)) (proj2 Hi)). exact (proj2 H10 i Hi).
  - refine (C01_pf (const_env 85) (uninit (const_env 85)) P 8 8 (toy_sk Picnic_L1_FS) (toy_pk Picnic_L1_FS) [9%N]
      (zeros (sig_size Picnic_L1_FS)) (sig_size Picnic_L1_FS) buf' l _ _ H1 H1 H3 H4 H8 H6 H9 _ (le_n _) Hs).
    + rewrite H5. exact HP.
    + rewrite H5. reflexivity.
    + rewrite H11. exact (le_n _).
Qed.

(** C40: the parameter sets are those of Table 2 of the specification. *)
Theorem C40_parameters_are_specified : forall p P,
  get_param_set p = Some P ->
  exists sp, table2 p = Some sp /\
    stateSizeBits P = sp_n sp /\ numSboxes P = sp_s sp /\ numRounds P = sp_r sp /\
    use_shake128 P = sp_shake128 sp /\ 8 * digestSizeBytes P = sp_H sp /\ numMPCRounds P = sp_T sp /\
    numOpenedRounds P = sp_u sp /\ numMPCParties P = sp_N sp /\ 8 * seedSizeBytes P = sp_S sp /\
    is_UR (transf P) = sp_UR sp /\ saltSizeBytes P = 32 /\
    stateSizeBytes P = octets (sp_n sp) /\ andSizeBytes P = octets (3 * sp_r sp * sp_s sp).
Proof. exact parameters_are. Qed.
Print Assumptions C40_parameters_are_specified.

Example C40_example : exists P, get_param_set Picnic3_L5 = Some P /\ stateSizeBits P = 255.
Proof. eexists. split; reflexivity. Qed.

(** C41: a Picnic3 signature consists of exactly the bytes of Section 7 of the specification, as
    written down in KkwSpec.v. *)
Theorem C41_sign3_is_specified : forall E p P sp fuel sk msg buf len,
  get_param_set p = Some P -> sk_params sk = p -> is_picnic3 p = true -> table2 p = Some sp ->
  env_bytes_ok E -> constants_ok E P -> inverses_ok E P -> sk_wf sk -> padding_zero P (sk_data sk) ->
  lowmc_relation E P (sk_data sk) (pk_plaintext (sk_pk sk)) (pk_ciphertext (sk_pk sk)) ->
  len <= length buf ->
  picnic_sign E fuel sk msg buf len =
  match kkw_sign E sp (spec_lowmc E P sp) (spec_K0inv E P) (spec_Linv E P)
          (block P (sk_data sk)) (block P (pk_ciphertext (sk_pk sk)))
          (block P (pk_plaintext (sk_pk sk))) msg fuel with
  | None => NoFuel
  | Some sg => if len <? length sg then Ok (false, buf, len)
               else Ok (true, sg ++ skipn (length sg) buf, length sg)
  end.
Proof. exact picnic3_sign_is. Qed.
Print Assumptions C41_sign3_is_specified.

Example C41_example : exists P sp buf' l,
  let E := count_env in let p := Picnic3_L1 in
  get_param_set p = Some P /\ sk_params (toy_sk p) = p /\ table2 p = Some sp /\
  env_bytes_ok E /\ constants_ok E P /\ inverses_ok E P /\ sk_wf (toy_sk p) /\ padding_zero P (sk_data (toy_sk p)) /\
  lowmc_relation E P (sk_data (toy_sk p)) (pk_plaintext (sk_pk (toy_sk p))) (pk_ciphertext (sk_pk (toy_sk p))) /\
  picnic_sign E 30 (toy_sk p) [1%N; 2%N] (zeros (sig_size p)) (sig_size p) = Ok (true, buf', l).
Proof.
  destruct (get_param_set Picnic3_L1) as [P|] eqn:HP; [|discriminate HP].
  destruct (p3_setup _ P HP) as (A1 & _ & A3 & A4 & A5 & A6 & _ & _ & _ & A10 & _).
  destruct (toy_sk_facts _ P HP) as (_ & _ & Hz & _).
  destruct (count_signs _ P [1%N; 2%N] HP eq_refl) as (buf' & l & Hs); [discriminate|reflexivity|].
  destruct (table2_conforms _ P HP) as (sp & Ht & _).
  exists P, sp, buf', l. cbv zeta.
  exact (conj HP (conj A6 (conj Ht (conj A1 (conj A3 (conj A4 (conj A5 (conj Hz (conj A10 Hs))))))))).
Qed.

(** C42: picnic_verify with a Picnic3 set decides the verification of Section 7, for every byte
    string. *)
Theorem C42_verify3_is_specified : forall E p P sp fuel pk msg sg,
  get_param_set p = Some P -> pk_params pk = p -> is_picnic3 p = true -> table2 p = Some sp ->
  env_bytes_ok E -> constants_ok E P -> inverses_ok E P -> pk_wf pk -> bytes_ok sg ->
  picnic_verify E fuel pk msg sg =
  match kkw_verify E sp (spec_lowmc E P sp) (spec_K0inv E P) (spec_Linv E P) fuel
          (block P (pk_ciphertext pk)) (block P (pk_plaintext pk)) msg sg with
  | None => NoFuel
  | Some b => Ok b
  end.
Proof. exact picnic3_verify_is. Qed.
Print Assumptions C42_verify3_is_specified.

Example C42_example : exists P sp sg,
  let E := count_env in let p := Picnic3_L3 in
  get_param_set p = Some P /\ pk_params (toy_pk p) = p /\ table2 p = Some sp /\
  env_bytes_ok E /\ constants_ok E P /\ inverses_ok E P /\ pk_wf (toy_pk p) /\ bytes_ok sg /\
  picnic_verify E 30 (toy_pk p) [7%N; 2%N] sg = Ok true.
Proof.
  destruct (get_param_set Picnic3_L3) as [P|] eqn:HP; [|discriminate HP].
  destruct (p3_setup _ P HP) as (A1 & _ & A3 & A4 & _ & _ & A7 & A8 & _).
  destruct (count_accepts _ P [7%N; 2%N] HP eq_refl) as (sg & Hb & Hv); [discriminate|reflexivity|].
  destruct (table2_conforms _ P HP) as (sp & Ht & _).
  exists P, sp, sg. cbv zeta.
  exact (conj HP (conj A8 (conj Ht (conj A1 (conj A3 (conj A4 (conj A7 (conj Hb Hv)))))))).
Qed.
