(** Signing as offered to callers, on memory with pointers: a ZKB++ signature written as bytes (picnic_impl.c:982-1038)
    and signing followed by it (picnic.c:267-304). *)

From Coq Require Import List NArith Arith Bool Lia.
From Verif Require Import Base Params Env Spec LowMC Picnic1 MiniC CodeLowMC CodeSpec HashSpec CodeZkbSpec CodeSignAll CodeSignAllSpec CodeSerialize CodeSerializeSpec Api ApiSpec.
From Verif Require Import BaseFacts ParamFacts CodeWitness CodeSignWitness CodeSignAllWitness CodeSerializeProofs CodeSerializeWitness Witness.
Import ListNotations.

(** C81: writing a signature as bytes, for any signature in memory: it runs to the end without an access out of bounds or
    misaligned and without overlapping copies, and changes only the caller's buffer; when the length given by the caller
    is too small it reports this and changes nothing, otherwise the buffer and the length are those of the model. *)
Theorem C81_serialize_code : forall U p P st q qb buf len s,
  get_param_set p = Some P -> is_picnic3 p = false -> serialize_call P st q qb buf len s ->
  exists st' t, run U (c_serialize P) st = Some (st', t) /\
    nx st' = nx st /\ chg (nx st) (mm st) (mm st') [(qb, length buf)] /\
    match serializeSignature P s buf len with
    | Ok None => iv st' 5 = 0 /\ mm st' = mm st
    | Ok (Some (l, buf')) => iv st' 5 = 1 /\ iv st' 4 = l /\ holds st' qb buf'
    | _ => False
    end.
Proof. exact serialize_code. Qed.
Print Assumptions C81_serialize_code.

(** Every ZKB++ parameter set, every signature with buffers of the right sizes, every buffer; for instance the signatures
    with challenge 0, 1 or 2 in every round. *)
Example C81_example : forall p P s buf len, get_param_set p = Some P -> is_picnic3 p = false ->
  (sig_sized P s -> bytes_ok buf -> len <= length buf -> serialize_call P (sig_start P s buf len) (fun i => (i, 0)) (signer_count P, 0) buf len s) /\
  sig_sized P (plain_sig P 0) /\ sig_sized P (plain_sig P 85) /\ sig_sized P (plain_sig P 170).
Proof.
  intros p P s buf len HP Hp. pose proof (get_param_set_wfP1 p P HP Hp) as HP1. split; [intros Hs Bb Hl; apply sig_start_call; auto|]. repeat split; apply plain_sized; reflexivity.
Qed.

(** C82: ZKB++ signing as offered to callers, on memory with pointers and SHAKE itself, from the private key, the message and
    the caller's buffer and length to the encoded signature: it runs to the end without undefined behaviour and changes
    only its own buffers, the signature structure and the caller's buffer; return value, bytes in the caller's buffer
    and reported length are those of the model of the whole function. *)
Theorem C82_picnic_sign_code : forall U E P st q qb buf len k msg fuel,
  locals_ok U -> get_param_set (sk_params k) = Some P -> is_picnic3 (sk_params k) = false -> env_bytes_ok E -> constants_ok E P -> sk_wf k ->
  api_call P E st q qb buf len k msg ->
  exists st' t, run U (c_picnic_sign P (length msg) fuel) st = Some (st', t) /\
    nx st' = nx st /\ chg (nx st) (mm st) (mm st') (signer_writes P q ++ [(qb, length buf)]) /\
    match picnic_sign (with_shake E) fuel k msg buf len with
    | Ok (r, buf', l) => iv st' 5 = (if r then 1 else 0) /\ iv st' 10 = l /\ holds st' qb buf'
    | NoFuel => iv st' 2 = 1 /\ iv st' 3 = 0
    | _ => False
    end.
Proof. exact picnic_sign_code. Qed.
Print Assumptions C82_picnic_sign_code.

(** Every key of a ZKB++ parameter set, valid or not, every message below 4 GiB, every buffer and every length. *)
Example C82_example : forall P k msg buf len, get_param_set (sk_params k) = Some P -> is_picnic3 (sk_params k) = false -> sk_wf k -> bytes_ok msg -> short msg -> bytes_ok buf -> len <= length buf ->
  locals_ok zero_locals /\ env_bytes_ok toy_env /\ constants_ok toy_env P /\
  exists qb, api_call P toy_env (demo_api P k msg buf len) (fun i => (i, 0)) qb buf len k msg.
Proof.
  intros P k msg buf len HP _ HW Bm Sm Bb Hl. split; [exact zero_locals_ok|]. split; [exact toy_env_bytes|]. split; [exact (toy_constants_all _ P HP)|]. apply demo_api_call; auto.
Qed.
