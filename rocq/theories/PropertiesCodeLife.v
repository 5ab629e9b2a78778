(** The life of a key pair, with every function of the interface executed on a memory of its own. *)

From Coq Require Import List NArith Arith Bool Lia.
From Verif Require Import Base Params Env Spec LowMC Picnic1 MiniC CodeLowMC CodeSpec HashSpec CodeZkbSpec SigSpec CodeSerialize CodeSerializeSpec
  CodeDeserialize CodeDeserializeSpec CodeKeys CodeKeygen CodeKeysSpec Api ApiSpec.
From Verif Require Import BaseFacts ParamFacts CodeWitness CodeSignWitness CodeVerAllWitness CodeSerializeWitness CodeDeserializeWitness
  CodeKeysThm CodeKeygenProofs CodeLifeProofs Witness.
Import ListNotations.

(** C95: a key pair is generated in one memory; its public key is written to bytes in a second and read from them in a third;
    any message is signed in a fourth, with a buffer of picnic_signature_size bytes, and the signature is verified in a
    fifth with the public key that was read. Every step runs to the end, and the signature is accepted unless the digests
    allowed for the challenge are used up. *)
Theorem C95_code_life : forall U E p P rng st q,
  locals_ok U -> env_bytes_ok E -> get_param_set p = Some P -> is_picnic3 p = false -> p <> Picnic_L1_full -> constants_ok E P ->
  rng_wf rng -> keygen_call E P rng st q -> fst (rng 0 (stateSizeBytes P)) = true -> fst (rng 1 (stateSizeBytes P)) = true ->
  exists st' t pk sk, run U (c_keygen p P) st = Some (st', t) /\ iv st' 5 = 1 /\
    iv st' 7 = N.to_nat (pk_params pk) /\ iv st' 8 = N.to_nat (sk_params sk) /\ (forall j, j < 5 -> holds st' (q j) (key_pair_array pk sk j)) /\
    forall U1 st1 qb1 buf1 len1, write_call st1 qb1 buf1 len1 [pk_ciphertext pk; pk_plaintext pk] -> 1 + 2 * stateSizeBytes P <= len1 ->
    exists st1' t1 out, run U1 (c_write_key (pk_params pk) P 2) st1 = Some (st1', t1) /\ iv st1' 5 = 1 + 2 * stateSizeBytes P /\ holds st1' qb1 out /\
    forall U2 st2 q2 qb2 old, pk_wf old -> read_call st2 q2 qb2 out [pk_ciphertext old; pk_plaintext old] -> iv st2 7 = N.to_nat (pk_params old) ->
    exists st2' t2 pk', run U2 (c_read_key 2 false) st2 = Some (st2', t2) /\ iv st2' 5 = 1 /\ iv st2' 7 = N.to_nat (pk_params pk') /\
      holds st2' (q2 0) (pk_ciphertext pk') /\ holds st2' (q2 1) (pk_plaintext pk') /\ pk_params pk' = p /\
    forall U3 st3 q3 qb3 buf3 len3 msg fuel, locals_ok U3 -> N.to_nat (picnic_signature_size p) <= len3 -> api_call P E st3 q3 qb3 buf3 len3 sk msg ->
    exists st3' t3, run U3 (c_picnic_sign P (length msg) fuel) st3 = Some (st3', t3) /\
     (iv st3' 2 = 1 /\ iv st3' 3 = 0 \/
      exists sg, iv st3' 5 = 1 /\ iv st3' 10 = length sg /\ holds st3' qb3 sg /\
      forall U4 u st4 q4 g ps fuel', locals_ok U4 -> env_bytes_ok (with_uninit E u) -> fuel <= fuel' ->
      received_call P (with_uninit E u) st4 q4 g ps sg (pk_ciphertext pk') (firstn (4 * stateSizeWords P) (pk_plaintext pk')) msg ->
      exists st4' t4, run U4 (c_picnic_verify P (length msg) fuel') st4 = Some (st4', t4) /\ iv st4' 6 = 1).
Proof. exact life_code. Qed.
Print Assumptions C95_code_life.

(** Every ZKB++ set but one, any previous contents of the keys, any buffers, messages and keys that came out of the steps before. *)
Example C95_example : forall p P l, get_param_set p = Some P -> is_picnic3 p = false -> p <> Picnic_L1_full -> (forall j, j < 5 -> length (l j) = 32 /\ bytes_ok (l j)) ->
  keygen_call toy_env P toy_rng (keygen_state toy_env P toy_rng l) (fun j => (j, 0)) /\ rng_wf toy_rng /\
  fst (toy_rng 0 (stateSizeBytes P)) = true /\ fst (toy_rng 1 (stateSizeBytes P)) = true /\
  (forall pk buf, pk_wf pk -> bytes_ok buf -> let ls := [pk_ciphertext pk; pk_plaintext pk] in
     write_call (key_state ls buf (length buf) 0) (2, 0) buf (length buf) ls /\
     read_call (key_state ls buf (length buf) (N.to_nat (pk_params pk))) (fun j => (j, 0)) (2, 0) buf ls /\
     iv (key_state ls buf (length buf) (N.to_nat (pk_params pk))) 7 = N.to_nat (pk_params pk)) /\
  (forall sk msg buf, sk_params sk = p -> sk_wf sk -> bytes_ok msg -> short msg -> bytes_ok buf ->
     exists qb, api_call P toy_env (demo_api P sk msg buf (length buf)) (fun i => (i, 0)) qb buf (length buf) sk msg) /\
  (forall pk msg sg, pk_params pk = p -> pk_wf pk -> bytes_ok msg -> short msg -> bytes_ok sg -> let pt := firstn (4 * stateSizeWords P) (pk_plaintext pk) in
     exists ps, received_call P toy_env (receive_start toy_env P sg (pk_ciphertext pk) pt msg) (at_block P) (kept P) ps sg (pk_ciphertext pk) pt msg).
Proof.
  intros p P l HP H3 Hf Hl. pose proof (toy_constants_all p P HP) as HC. split; [apply keygen_called; auto; exact toy_rng_wf|]. split; [exact toy_rng_wf|]. split; [reflexivity|]. split; [reflexivity|].
  split; [|split].
  - intros pk buf [[_ W1] [_ W2]] Bb ls.
    assert (B : forall j x, nth_error ls j = Some x -> bytes_ok x) by (intros j x Ex; do 2 (destruct j as [|j]; [injection Ex as <-; assumption|]); destruct j; discriminate Ex).
    split; [apply (key_write_call ls); auto|]. split; [apply (key_read_call ls); auto|reflexivity].
  - intros sk msg buf <- Ws Bm Sm Bb. apply demo_api_call; auto.
  - intros pk msg sg <- Wp Bm Sm Bs pt. destruct (receive_any toy_env P pk msg sg) as (ps & HA & _); auto; [exact toy_env_bytes|]. exists ps. exact HA.
Qed.
