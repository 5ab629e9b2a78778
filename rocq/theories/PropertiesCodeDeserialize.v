(** Verification as offered to callers, on memory with pointers: a ZKB++ signature read from bytes
    (picnic_impl.c:1041-1146) and verification of it (picnic.c:394-422). *)

From Coq Require Import List NArith Arith Bool Lia.
From Verif Require Import Base Params Env Spec LowMC Picnic1 MiniC CodeLowMC CodeSpec HashSpec CodeZkbSpec SigSpec CodeVerAllSpec CodeDeserialize CodeDeserializeSpec Api ApiSpec.
From Verif Require Import BaseFacts ParamFacts ApiFacts CodeWitness CodeSignWitness CodeVerifyProofs CodeVerAllWitness CodeDeserializeProofs CodeReceiveProofs CodeDeserializeWitness Witness.
From Verif Require ZkbWitness CodeSignProofs.
Import ListNotations.

(** C83: reading a signature from bytes, for any string and any contents of the memory allocated for the signature: for the
    FS and full sets it always runs to the end without an access out of bounds or misaligned and without overlapping
    copies, and changes only that memory; it accepts or refuses as in the model, and what it accepts is in memory as the
    signature of the model. For the UR sets the same, or else the model says that it reads past the string, and then the run
    fails if the string ends where its memory does. *)
Theorem C83_deserialize_code : forall U E p P st g ps sg,
  get_param_set p = Some P -> is_picnic3 p = false -> env_bytes_ok E -> deserialize_call P E st g ps sg ->
  match deserializeSignature E P sg with
  | Ok r => exists st' t, run U (c_deserialize P) st = Some (st', t) /\
      nx st' = nx st /\ chg (nx st) (mm st) (mm st') (sig_writes P g) /\
      match r with Some s => iv st' 5 = 1 /\ signature_held P st' g s | None => iv st' 5 = 0 end
  | UB => transf P = TRANSFORM_UR /\ (length (mm st (fst ps)) = snd ps + length sg -> run U (c_deserialize P) st = None)
  | _ => False
  end.
Proof. exact deserialize_code. Qed.
Print Assumptions C83_deserialize_code.

(** Every parameter set, every string, every contents of uninitialised memory. *)
Example C83_example : forall E P sg, env_bytes_ok E -> bytes_ok sg ->
  env_bytes_ok toy_env /\ deserialize_call P E (read_start E P sg) (fun j => (j, 0)) (sig_count P, 0) sg /\
  length (mm (read_start E P sg) (sig_count P)) = length sg.
Proof.
  intros E P sg HE Hb. split; [exact toy_env_bytes|]. split; [apply read_start_call; assumption|]. exact (read_ends E P sg).
Qed.

(** C84: ZKB++ verification as offered to callers, on memory with pointers and SHAKE itself, for any public key, message and
    string: for the FS and full sets (but Picnic-L1-full, C58) it runs to the end without undefined behaviour, changes only
    what it allocates, and accepts exactly if the model of the whole function does. For the UR sets the same, unless the
    model reads past the string; the run then fails if the string ends where its memory does. *)
Theorem C84_picnic_verify_code : forall U E P st q g ps sg pk msg fuel,
  locals_ok U -> get_param_set (pk_params pk) = Some P -> is_picnic3 (pk_params pk) = false -> pk_params pk <> Picnic_L1_full ->
  env_bytes_ok E -> constants_ok E P -> pk_wf pk ->
  received_call P E st q g ps sg (pk_ciphertext pk) (firstn (4 * stateSizeWords P) (pk_plaintext pk)) msg ->
  match picnic_verify (with_shake E) fuel pk msg sg with
  | UB => transf P = TRANSFORM_UR /\ (length (mm st (fst ps)) = snd ps + length sg -> run U (c_picnic_verify P (length msg) fuel) st = None)
  | Abort => False
  | r => exists st' t, run U (c_picnic_verify P (length msg) fuel) st = Some (st', t) /\
      nx st' = nx st /\ chg (nx st) (mm st) (mm st') (allocated P q g) /\
      match r with Ok b => iv st' 6 = (if b then 1 else 0) | _ => iv st' 5 = 1 /\ iv st' 2 = 0 end
  end.
Proof. exact picnic_verify_code. Qed.
Print Assumptions C84_picnic_verify_code.

(** Every key, every message below 4 GiB, every string. *)
Example C84_example : forall P pk msg sg, get_param_set (pk_params pk) = Some P -> is_picnic3 (pk_params pk) = false -> pk_params pk <> Picnic_L1_full ->
  pk_wf pk -> bytes_ok msg -> short msg -> bytes_ok sg ->
  locals_ok zero_locals /\ env_bytes_ok toy_env /\ constants_ok toy_env P /\
  let pt := firstn (4 * stateSizeWords P) (pk_plaintext pk) in
  exists ps, received_call P toy_env (receive_start toy_env P sg (pk_ciphertext pk) pt msg) (at_block P) (kept P) ps sg (pk_ciphertext pk) pt msg /\
    length (mm (receive_start toy_env P sg (pk_ciphertext pk) pt msg) (fst ps)) = snd ps + length sg.
Proof.
  intros P pk msg sg HP Hp Hf HW Bm Sm Bs. split; [exact zero_locals_ok|]. split; [exact toy_env_bytes|]. split; [exact (toy_constants_all _ P HP)|].
  exact (receive_any toy_env P pk msg sg HP Hp Hf HW Bm Sm Bs toy_env_bytes (toy_constants_all _ P HP)).
Qed.

(** C85: C16 on memory. For the UR sets, every string of all-zero challenge whose length is at least the length the reader
    expects but less than the full signature length, in memory that ends where the string does, makes verification read
    past that memory, for any key, message, constants and uninitialised memory. *)
Theorem C85_verify_reads_past_memory_refuted : forall U E P st q g ps sg pk msg fuel,
  locals_ok U -> get_param_set (pk_params pk) = Some P -> is_picnic3 (pk_params pk) = false -> env_bytes_ok E -> constants_ok E P -> pk_wf pk ->
  transf P = TRANSFORM_UR -> (forall k, k < numMPCRounds P -> trit_at sg k = 0) -> ZkbWitness.ur_short_len P <= length sg < ZkbWitness.sig_size (pk_params pk) ->
  received_call P E st q g ps sg (pk_ciphertext pk) (firstn (4 * stateSizeWords P) (pk_plaintext pk)) msg -> length (mm st (fst ps)) = snd ps + length sg ->
  run U (c_picnic_verify P (length msg) fuel) st = None.
Proof. exact reads_past_code. Qed.
Print Assumptions C85_verify_reads_past_memory_refuted.

(** Memory as in C84_example; the string of zeros of the length the reader expects, for every UR set. *)
Example C85_example : forall P p, get_param_set p = Some P -> is_picnic3 p = false -> transf P = TRANSFORM_UR ->
  let sg := zeros (ZkbWitness.ur_short_len P) in
  p <> Picnic_L1_full /\ bytes_ok sg /\ (forall k, k < numMPCRounds P -> trit_at sg k = 0) /\ ZkbWitness.ur_short_len P <= length sg < ZkbWitness.sig_size p.
Proof.
  intros P p HP Hp Ht. cbv zeta. rewrite length_zeros. split; [intros ->; injection HP as <-; discriminate Ht|]. split; [apply bytes_ok_zeros|].
  split; [intros k _; apply ZkbWitness.zeros_trit|]. split; [apply le_n|exact (ZkbWitness.ur_short_lt _ P HP Hp Ht)].
Qed.
