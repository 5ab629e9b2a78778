(** Property theorems: keys, parameter sets, utilities. *)

From Coq Require Import List NArith Arith Bool String.
From Verif Require Import Base Params Env Spec LowMC Tree Picnic1 Picnic3 Api ApiSpec.
From Verif Require Import ApiFacts UtilFacts ApiProofs1 Witness.
Import ListNotations.

(** C06: writing a public key and reading it back. *)
Theorem C06_public_key_round_trip : forall pk P buf buflen k0,
  get_param_set (pk_params pk) = Some P -> pk_wf pk -> pk_padding_zero P pk ->
  bytes_ok buf -> buflen <= List.length buf -> 1 + 2 * stateSizeBytes P <= buflen -> pk_wf k0 ->
  exists out pk',
    picnic_write_public_key (Some pk) (Some buf) buflen
      = Ok (Some (1 + 2 * stateSizeBytes P), Some out)
    /\ out = pk_encoding P pk ++ skipn (1 + 2 * stateSizeBytes P) buf
    /\ picnic_read_public_key (Some k0) (Some out) = Ok (true, Some pk')
    /\ pk_same P pk' pk.
Proof. exact C06_pf. Qed.
Print Assumptions C06_public_key_round_trip.

Example C06_example : exists P,
  get_param_set (pk_params (toy_pk Picnic3_L1)) = Some P /\ pk_wf (toy_pk Picnic3_L1)
  /\ pk_padding_zero P (toy_pk Picnic3_L1) /\ pk_wf zero_pk.
Proof.
  destruct (get_param_set Picnic3_L1) as [P|] eqn:HP; [|discriminate HP]. exists P.
  destruct (toy_keys_spec _ _ HP) as (_ & -> & _ & _ & _ & Hw & _).
  destruct (toy_padding _ _ HP) as [_ Hp].
  exact (conj HP (conj Hw (conj Hp zero_pk_wf))).
Qed.

(** C07: the same for private keys; the array bytes past the block come back as zero. *)
Theorem C07_private_key_round_trip : forall sk P buf buflen k0,
  get_param_set (sk_params sk) = Some P -> sk_wf sk -> sk_padding_zero P sk ->
  bytes_ok buf -> buflen <= List.length buf -> 1 + 3 * stateSizeBytes P <= buflen -> sk_wf k0 ->
  exists out sk',
    picnic_write_private_key (Some sk) (Some buf) buflen
      = Ok (Some (1 + 3 * stateSizeBytes P), Some out)
    /\ out = sk_encoding P sk ++ skipn (1 + 3 * stateSizeBytes P) buf
    /\ picnic_read_private_key (Some k0) (Some out) = Ok (true, Some sk')
    /\ sk_params sk' = sk_params sk
    /\ pk_params (sk_pk sk') = sk_params sk
    /\ sk_data sk' = block P (sk_data sk) ++ zeros (32 - stateSizeBytes P)
    /\ pk_plaintext (sk_pk sk')
       = block P (pk_plaintext (sk_pk sk)) ++ zeros (32 - stateSizeBytes P)
    /\ pk_ciphertext (sk_pk sk')
       = block P (pk_ciphertext (sk_pk sk)) ++ zeros (32 - stateSizeBytes P).
Proof. exact C07_pf. Qed.
Print Assumptions C07_private_key_round_trip.

Example C07_example : exists P,
  get_param_set (sk_params (toy_sk Picnic_L1_full)) = Some P /\ sk_wf (toy_sk Picnic_L1_full)
  /\ sk_padding_zero P (toy_sk Picnic_L1_full) /\ sk_wf zero_sk.
Proof.
  destruct (get_param_set Picnic_L1_full) as [P|] eqn:HP; [|discriminate HP]. exists P.
  destruct (toy_keys_spec _ _ HP) as (_ & _ & -> & _ & Hw & _).
  destruct (toy_padding _ _ HP) as [Hp _].
  exact (conj HP (conj Hw (conj Hp zero_sk_wf))).
Qed.

(** C08: the readers are total, accept exactly the encodings, and what they accept is canonical. *)
Theorem C08_public_key_canonical : forall k b,
  pk_wf k -> bytes_ok b ->
  exists r k',
    picnic_read_public_key (Some k) (Some b) = Ok (r, Some k')
    /\ (r = true <-> starts_with_pk b)
    /\ (r = true ->
        exists P, get_param_set (pk_params k') = Some P /\
          forall buf, bytes_ok buf -> List.length buf = 1 + 2 * stateSizeBytes P ->
          picnic_write_public_key (Some k') (Some buf) (List.length buf) =
          Ok (Some (1 + 2 * stateSizeBytes P), Some (firstn (1 + 2 * stateSizeBytes P) b))).
Proof. exact C08_pk_pf. Qed.
Print Assumptions C08_public_key_canonical.

Theorem C08_private_key_canonical : forall k b,
  sk_wf k -> bytes_ok b ->
  exists r k',
    picnic_read_private_key (Some k) (Some b) = Ok (r, Some k')
    /\ (r = true <-> starts_with_sk b)
    /\ (r = true ->
        exists P, get_param_set (sk_params k') = Some P /\
          forall buf, bytes_ok buf -> List.length buf = 1 + 3 * stateSizeBytes P ->
          picnic_write_private_key (Some k') (Some buf) (List.length buf) =
          Ok (Some (1 + 3 * stateSizeBytes P), Some (firstn (1 + 3 * stateSizeBytes P) b))).
Proof. exact C08_sk_pf. Qed.
Print Assumptions C08_private_key_canonical.

Example C08_example :
  sk_wf zero_sk /\ pk_wf zero_pk
  /\ (exists k', picnic_read_public_key (Some zero_pk) (Some (7%N :: repeat 128%N 34)) = Ok (true, Some k'))
  /\ (exists k', picnic_read_public_key (Some zero_pk) (Some (7%N :: repeat 129%N 34)) = Ok (false, Some k')).
Proof.
  split; [exact zero_sk_wf|]. split; [exact zero_pk_wf|]. split.
  - eexists. vm_compute. reflexivity.
  - eexists. vm_compute. reflexivity.
Qed.

(** C09: key generation. *)
Theorem C09_keygen : forall E rng p pk0 sk0,
  env_bytes_ok E -> (forall P, get_param_set p = Some P -> constants_ok E P) -> rng_wf rng ->
  exists r pk sk,
    picnic_keygen E rng p pk0 sk0 = Ok (r, pk, sk)
    /\ (r = true <-> exists P, get_param_set p = Some P /\
          fst (rng 0 (stateSizeBytes P)) = true /\ fst (rng 1 (stateSizeBytes P)) = true)
    /\ (r = true ->
        exists P, get_param_set p = Some P
        /\ pk_params pk = p /\ sk_params sk = p /\ sk_pk sk = pk
        /\ picnic_validate_keypair E (Some sk) (Some pk) = Ok true
        /\ (forall i, stateSizeBits P <= i ->
              bit (sk_data sk) i = false /\ bit (pk_plaintext pk) i = false
              /\ bit (pk_ciphertext pk) i = false)
        /\ (forall buf k0, bytes_ok buf -> 1 + 2 * stateSizeBytes P <= List.length buf -> pk_wf k0 ->
              exists n out pk', picnic_write_public_key (Some pk) (Some buf) (List.length buf)
                              = Ok (Some n, Some out)
                           /\ picnic_read_public_key (Some k0) (Some out) = Ok (true, Some pk')
                           /\ pk_same P pk' pk)
        /\ (forall buf k0, bytes_ok buf -> 1 + 3 * stateSizeBytes P <= List.length buf -> sk_wf k0 ->
              exists n out, picnic_write_private_key (Some sk) (Some buf) (List.length buf)
                           = Ok (Some n, Some out)
                        /\ picnic_read_private_key (Some k0) (Some out) = Ok (true, Some sk))).
Proof. exact C09_pf. Qed.
Print Assumptions C09_keygen.

Example C09_example :
  env_bytes_ok toy_env /\ (forall P, get_param_set Picnic3_L5 = Some P -> constants_ok toy_env P)
  /\ rng_wf toy_rng.
Proof. exact (conj toy_env_bytes (conj (toy_constants_all Picnic3_L5) toy_rng_wf)). Qed.

(** C10: validation decides the LowMC relation. *)
Theorem C10_validate : forall E sk pk P,
  env_bytes_ok E -> get_param_set (pk_params pk) = Some P -> constants_ok E P ->
  sk_wf sk -> pk_wf pk ->
  exists v, picnic_validate_keypair E (Some sk) (Some pk) = Ok v /\
    (v = true <-> sk_params sk = pk_params pk /\
                  lowmc_relation E P (sk_data sk) (pk_plaintext pk) (pk_ciphertext pk)).
Proof. exact C10_pf. Qed.
Print Assumptions C10_validate.

Example C10_example : exists P,
  env_bytes_ok toy_env /\ get_param_set (pk_params (toy_pk Picnic_L3_UR)) = Some P
  /\ constants_ok toy_env P /\ sk_wf (toy_sk Picnic_L3_UR) /\ pk_wf (toy_pk Picnic_L3_UR)
  /\ lowmc_relation toy_env P (sk_data (toy_sk Picnic_L3_UR)) (pk_plaintext (toy_pk Picnic_L3_UR))
                    (pk_ciphertext (toy_pk Picnic_L3_UR)).
Proof.
  destruct (get_param_set Picnic_L3_UR) as [P|] eqn:HP; [|discriminate HP]. exists P.
  destruct (toy_keys_spec _ _ HP) as (_ & -> & _ & _ & Hs & Hp & Hr & _).
  exact (conj toy_env_bytes (conj HP (conj (toy_constants_all _ _ HP) (conj Hs (conj Hp Hr))))).
Qed.

(** C11: a NULL public key is dereferenced, whatever the private key. *)
Theorem C11_validate_null_refuted :
  exists (E : env) (sk : option privatekey) (pk : option publickey),
    pk = None /\ picnic_validate_keypair E sk pk = UB.
Proof. exact C11_pf. Qed.
Print Assumptions C11_validate_null_refuted.

(** What does hold: a NULL private key is rejected. *)
Theorem C11_validate_null_sk : forall E pk, picnic_validate_keypair E None (Some pk) = Ok false.
Proof. exact C11_null_sk_pf. Qed.
Print Assumptions C11_validate_null_sk.

(** C30: the parameter table. *)
Theorem C30_param_ids : forall p, (exists P, get_param_set p = Some P) <-> (1 <= p <= 12)%N.
Proof. exact C30_ids_pf. Qed.
Print Assumptions C30_param_ids.

Theorem C30_param_sizes : forall p P, get_param_set p = Some P ->
  8 * (stateSizeBytes P - 1) < stateSizeBits P <= 8 * stateSizeBytes P
  /\ 32 * (stateSizeWords P - 1) < stateSizeBits P <= 32 * stateSizeWords P
  /\ 8 * (andSizeBytes P - 1) < 3 * numSboxes P * numRounds P <= 8 * andSizeBytes P
  /\ 3 * numSboxes P <= stateSizeBits P
  /\ 4 * stateSizeWords P <= 32
  /\ 1 + 2 * stateSizeBytes P <= 65 /\ 1 + 3 * stateSizeBytes P <= 97
  /\ digestSizeBytes P <= 64 /\ seedSizeBytes P <= 32 /\ digestSizeBytes P = 2 * seedSizeBytes P
  /\ saltSizeBytes P = 32
  /\ (is_picnic3 p = true ->
        numMPCParties P = 16 /\ 0 < numOpenedRounds P < numMPCRounds P
        /\ 3 * numSboxes P = stateSizeBits P)
  /\ (is_picnic3 p = false ->
        numMPCParties P = 3 /\ digestSizeBytes P <= andSizeBytes P
        /\ 24 * stateSizeWords P <=
           Nat.max (9 * stateSizeBytes P) (stateSizeBytes P + andSizeBytes P)).
Proof. exact C30_sizes_pf. Qed.
Print Assumptions C30_param_sizes.

Theorem C30_signature_size_max : forall p,
  (picnic_signature_size p <= PICNIC_MAX_SIGNATURE_SIZE)%N.
Proof. exact C30_size_max_pf. Qed.
Print Assumptions C30_signature_size_max.

Theorem C30_names_distinct : forall p q, (1 <= p <= 12)%N -> (1 <= q <= 12)%N ->
  picnic_get_param_name p = picnic_get_param_name q -> p = q.
Proof. exact param_names_pf. Qed.
Print Assumptions C30_names_distinct.

Example C30_example : exists P, get_param_set 8%N = Some P /\ stateSizeBits P = 192.
Proof. eexists. split; reflexivity. Qed.

(** C31: unknown parameter identifiers. *)
Theorem C31_unknown_params : forall E p, ~ (1 <= p <= 12)%N ->
  (forall rng pk sk, picnic_keygen E rng p pk sk = Ok (false, pk, sk))
  /\ (forall fuel sk msg buf len, sk_params sk = p ->
        picnic_sign E fuel sk msg buf len = Ok (false, buf, len))
  /\ (forall fuel pk msg s, pk_params pk = p -> picnic_verify E fuel pk msg s = Ok false)
  /\ picnic_signature_size p = PICNIC_MAX_SIGNATURE_SIZE
  /\ (forall pk buf len, pk_params pk = p -> picnic_write_public_key (Some pk) buf len = Ok (None, buf))
  /\ (forall sk buf len, sk_params sk = p -> picnic_write_private_key (Some sk) buf len = Ok (None, buf))
  /\ (forall pk b, picnic_read_public_key pk (Some (p :: b)) = Ok (false, pk))
  /\ (forall sk b, picnic_read_private_key sk (Some (p :: b)) = Ok (false, sk))
  /\ (forall sk pk, pk_params pk = p -> picnic_validate_keypair E sk (Some pk) = Ok false)
  /\ picnic_get_param_name p = "Unknown parameter set"%string.
Proof. exact C31_pf. Qed.
Print Assumptions C31_unknown_params.

Example C31_example : ~ (1 <= 13 <= 12)%N /\ ~ (1 <= 0 <= 12)%N.
Proof. split; intros [H1 H2]; [apply H2|apply H1]; reflexivity. Qed.

(** C32: utilities. *)
Theorem C32_ceil_log2 : forall x, (0 < x)%N -> (x < 2 ^ 32)%N ->
  (x <= 2 ^ ceil_log2 x)%N /\ forall k, (x <= 2 ^ k)%N -> (ceil_log2 x <= k)%N.
Proof. exact ceil_log2_least. Qed.
Print Assumptions C32_ceil_log2.

Theorem C32_numBytes : forall n, n <= 8 * numBytes n /\ forall k, n <= 8 * k -> numBytes n <= k.
Proof. exact numBytes_least. Qed.
Print Assumptions C32_numBytes.

Theorem C32_parity32 : forall x, parity32 x = xsum 32 (fun i => N.testbit x (N.of_nat i)).
Proof. exact BaseFacts.parity32_spec. Qed.
Print Assumptions C32_parity32.

Theorem C32_parity16 : forall x, parity16 x = xsum 16 (fun i => N.testbit x (N.of_nat i)).
Proof. exact parity16_spec. Qed.
Print Assumptions C32_parity16.

Theorem C32_get_set_bit : forall b i v,
  bytes_ok b -> i < 8 * List.length b ->
  exists b', setBit b i v = Ok b' /\ List.length b' = List.length b /\ bytes_ok b' /\
    getBit b' i = Ok v /\ (forall j, j <> i -> j < 8 * List.length b -> getBit b' j = getBit b j).
Proof. exact get_set_bit. Qed.
Print Assumptions C32_get_set_bit.

Example C32_example : ceil_log2 250 = 8%N /\ ceil_log2 256 = 8%N /\ ceil_log2 257 = 9%N
  /\ numBytes 129 = 17 /\ bytes_ok [255; 0; 7]%N.
Proof. repeat split; repeat constructor. Qed.
