(** picnic_sign and picnic_verify as programs on memory with pointers and SHAKE itself, against the specification document. *)

From Coq Require Import List NArith Arith Bool Lia.
From Verif Require Import Base Params Env Spec LowMC Picnic1 MiniC CodeLowMC CodeSpec HashSpec CodeZkbSpec SigSpec CodeSerialize CodeSerializeSpec CodeDeserialize CodeDeserializeSpec Api ApiSpec ZkbppSpec.
From Verif Require Import BaseFacts ParamFacts CodeWitness CodeSignWitness CodeVerAllWitness CodeSerializeWitness CodeDeserializeWitness CodeEndProofs ZkbppProofs Witness.
Import ListNotations.

(** C86: for every valid key, picnic_sign on memory runs to the end, and what it leaves in the caller's buffer is the
    signature of Section 6 of the specification with the reported length, or, if the caller's length is too small, it fails
    with the buffer unchanged. [fuel] bounds the number of digests for the challenge. *)
Theorem C86_sign_code_is_specified : forall U E P sp st q qb buf len k msg fuel,
  locals_ok U -> get_param_set (sk_params k) = Some P -> is_picnic3 (sk_params k) = false -> table2 (sk_params k) = Some sp ->
  env_bytes_ok E -> constants_ok E P -> sk_wf k -> padding_zero P (sk_data k) ->
  lowmc_relation E P (sk_data k) (pk_plaintext (sk_pk k)) (pk_ciphertext (sk_pk k)) ->
  api_call P E st q qb buf len k msg ->
  exists st' t, run U (c_picnic_sign P (length msg) fuel) st = Some (st', t) /\
    match zkbpp_sign (with_shake E) sp (spec_lowmc E P sp) (block P (sk_data k)) (block P (pk_ciphertext (sk_pk k))) (block P (pk_plaintext (sk_pk k))) msg fuel with
    | None => iv st' 2 = 1 /\ iv st' 3 = 0
    | Some sg => if len <? zkbpp_max_size sp then iv st' 5 = 0 /\ holds st' qb buf
                 else iv st' 5 = 1 /\ iv st' 10 = length sg /\ holds st' qb (sg ++ skipn (length sg) buf)
    end.
Proof. exact sign_code_is. Qed.
Print Assumptions C86_sign_code_is_specified.

(** A key made by picnic_keygen, for every ZKB++ set; every message below 4 GiB, every buffer. *)
Example C86_example : forall p P msg buf len, get_param_set p = Some P -> is_picnic3 p = false -> bytes_ok msg -> short msg -> bytes_ok buf -> len <= length buf ->
  exists sp qb, let k := toy_sk p in
  locals_ok zero_locals /\ sk_params k = p /\ table2 p = Some sp /\ env_bytes_ok toy_env /\ constants_ok toy_env P /\ sk_wf k /\ padding_zero P (sk_data k) /\
  lowmc_relation toy_env P (sk_data k) (pk_plaintext (sk_pk k)) (pk_ciphertext (sk_pk k)) /\
  api_call P toy_env (demo_api P k msg buf len) (fun i => (i, 0)) qb buf len k msg.
Proof.
  intros p P msg buf len HP Hp Bm Sm Bb Hl. destruct (toy_keys_spec p P HP) as (_ & K1 & K2 & K3 & K4 & K5 & K6 & K7). destruct (table2_conforms _ P HP) as (sp & Ht & _).
  destruct (demo_api_call P (toy_sk p) msg buf len) as (qb & HA); auto; [rewrite K2; exact HP|].
  exists sp, qb. cbv zeta. repeat (split; [solve [assumption|exact zero_locals_ok|exact toy_env_bytes|exact (toy_constants_all p P HP)|apply (toy_padding p P HP)|rewrite K3; exact K6]|]). exact HA.
Qed.

(** C87: picnic_verify on memory decides the verification of Section 6 of the specification; only for the UR sets, and then only
    for a string that is no signature, it may read past the string instead, and does if the string ends where its
    memory does. *)
Theorem C87_verify_code_is_specified : forall U E P sp st q g ps sg pk msg fuel,
  locals_ok U -> get_param_set (pk_params pk) = Some P -> is_picnic3 (pk_params pk) = false -> pk_params pk <> Picnic_L1_full -> table2 (pk_params pk) = Some sp ->
  env_bytes_ok E -> constants_ok E P -> pk_wf pk -> padding_zero P (pk_ciphertext pk) ->
  received_call P E st q g ps sg (pk_ciphertext pk) (firstn (4 * stateSizeWords P) (pk_plaintext pk)) msg ->
  (exists st' t, run U (c_picnic_verify P (length msg) fuel) st = Some (st', t) /\
    match zkbpp_verify (with_shake E) sp (spec_lowmc E P sp) fuel (block P (pk_ciphertext pk)) (block P (pk_plaintext pk)) msg sg with
    | None => iv st' 5 = 1 /\ iv st' 2 = 0
    | Some b => iv st' 6 = (if b then 1 else 0)
    end)
  \/ (sp_UR sp = true /\ zkbpp_parse sp sg = None /\ (length (mm st (fst ps)) = snd ps + length sg -> run U (c_picnic_verify P (length msg) fuel) st = None)).
Proof. exact verify_code_is. Qed.
Print Assumptions C87_verify_code_is_specified.

(** A key made by picnic_keygen, for every ZKB++ set but one; every message below 4 GiB, every string. *)
Example C87_example : forall p P msg sg, get_param_set p = Some P -> is_picnic3 p = false -> p <> Picnic_L1_full -> bytes_ok msg -> short msg -> bytes_ok sg ->
  exists sp ps, let pk := toy_pk p in let pt := firstn (4 * stateSizeWords P) (pk_plaintext pk) in
  locals_ok zero_locals /\ pk_params pk = p /\ table2 p = Some sp /\ env_bytes_ok toy_env /\ constants_ok toy_env P /\ pk_wf pk /\ padding_zero P (pk_ciphertext pk) /\
  received_call P toy_env (receive_start toy_env P sg (pk_ciphertext pk) pt msg) (at_block P) (kept P) ps sg (pk_ciphertext pk) pt msg.
Proof.
  intros p P msg sg HP Hp Hf Bm Sm Bs. destruct (toy_keys_spec p P HP) as (_ & K1 & K2 & K3 & K4 & K5 & K6 & K7). destruct (table2_conforms _ P HP) as (sp & Ht & _).
  destruct (receive_any toy_env P (toy_pk p) msg sg) as (ps & HA & _); auto; rewrite ?K1; auto; [exact toy_env_bytes|exact (toy_constants_all p P HP)|].
  exists sp, ps. cbv zeta. repeat (split; [solve [assumption|exact zero_locals_ok|exact toy_env_bytes|exact (toy_constants_all p P HP)|apply (toy_padding p P HP)]|]). exact HA.
Qed.

(** C88: for every valid key and a buffer of picnic_signature_size bytes, picnic_sign on memory runs to the end and, unless the
    digests allowed for the challenge are used up, leaves a signature that picnic_verify on any memory accepts, whatever
    uninitialised memory holds there. *)
Theorem C88_sign_then_verify_code : forall U E P st q qb buf len k msg fuel,
  locals_ok U -> get_param_set (sk_params k) = Some P -> is_picnic3 (sk_params k) = false -> sk_params k <> Picnic_L1_full ->
  env_bytes_ok E -> constants_ok E P -> sk_wf k -> padding_zero P (sk_data k) ->
  lowmc_relation E P (sk_data k) (pk_plaintext (sk_pk k)) (pk_ciphertext (sk_pk k)) ->
  N.to_nat (picnic_signature_size (sk_params k)) <= len ->
  api_call P E st q qb buf len k msg ->
  exists st' t, run U (c_picnic_sign P (length msg) fuel) st = Some (st', t) /\
   (iv st' 2 = 1 /\ iv st' 3 = 0 \/
    exists sg, iv st' 5 = 1 /\ iv st' 10 = length sg /\ holds st' qb sg /\
      forall U' u st2 q2 g ps pk fuel', locals_ok U' -> env_bytes_ok (with_uninit E u) -> pk_wf pk -> pk_of P k pk -> fuel <= fuel' ->
      received_call P (with_uninit E u) st2 q2 g ps sg (pk_ciphertext pk) (firstn (4 * stateSizeWords P) (pk_plaintext pk)) msg ->
      exists st2' t2, run U' (c_picnic_verify P (length msg) fuel') st2 = Some (st2', t2) /\ iv st2' 6 = 1).
Proof. exact sign_then_verify_code. Qed.
Print Assumptions C88_sign_then_verify_code.

(** The keys and memories of C86_example and C87_example; uninitialised memory that differs between the two. *)
Example C88_example : forall p P msg sg buf, get_param_set p = Some P -> is_picnic3 p = false -> p <> Picnic_L1_full -> bytes_ok msg -> short msg -> bytes_ok sg ->
  bytes_ok buf -> length buf = N.to_nat (picnic_signature_size p) ->
  let u := fun _ _ n => repeat 7%N n in let k := toy_sk p in let pt := firstn (4 * stateSizeWords P) (pk_plaintext (toy_pk p)) in
  exists qb ps, N.to_nat (picnic_signature_size (sk_params k)) <= length buf /\
  api_call P toy_env (demo_api P k msg buf (length buf)) (fun i => (i, 0)) qb buf (length buf) k msg /\
  env_bytes_ok (with_uninit toy_env u) /\ pk_wf (toy_pk p) /\ pk_of P k (toy_pk p) /\
  received_call P (with_uninit toy_env u) (receive_start (with_uninit toy_env u) P sg (pk_ciphertext (toy_pk p)) pt msg) (at_block P) (kept P) ps sg (pk_ciphertext (toy_pk p)) pt msg.
Proof.
  intros p P msg sg buf HP Hp Hf Bm Sm Bs Bb Lb. cbv zeta. destruct (toy_keys_spec p P HP) as (_ & K1 & K2 & K3 & K4 & K5 & K6 & K7).
  assert (HU : env_bytes_ok (with_uninit toy_env (fun _ _ n => repeat 7%N n))).
  { destruct toy_env_bytes as [X _]. split; [exact X|]. intros s i n. cbn [with_uninit uninit]. split; [apply repeat_length|apply repeat_ok; lia]. }
  destruct (demo_api_call P (toy_sk p) msg buf (length buf)) as (qb & HA); auto; [rewrite K2; exact HP|].
  destruct (receive_any (with_uninit toy_env (fun _ _ n => repeat 7%N n)) P (toy_pk p) msg sg) as (ps & HB & _); auto; rewrite ?K1; auto; [exact (toy_constants_all p P HP)|].
  exists qb, ps. rewrite K2, Lb. split; [apply le_n|]. rewrite <- Lb. split; [exact HA|]. split; [exact HU|]. split; [exact K5|]. split; [|exact HB].
  unfold pk_of. rewrite K1, K2, K3. auto.
Qed.
