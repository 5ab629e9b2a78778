(** Key generation as a program on memory with pointers. *)

From Coq Require Import List NArith Arith Bool Lia.
From Verif Require Import Base Params Env Spec LowMC MiniC CodeLowMC CodeSpec CodeZkbSpec CodeKeys CodeKeygen CodeKeysSpec Api ApiSpec.
From Verif Require Import BaseFacts ParamFacts CodeWitness CodeKeysThm CodeKeygenProofs Witness.
Import ListNotations.

(** C93: picnic_keygen on memory runs to the end and changes only the fields of the two keys. It succeeds exactly if both calls of
    the random source do; then the secret and the plaintext are the bits delivered by the first and the second call, the
    ciphertext is the LowMC encryption of the plaintext under the secret, and the public key inside of the secret key is the public
    key. Otherwise the ciphertext and the public key inside of the secret key are zero. *)
Theorem C93_keygen_code : forall U E p P rng st q,
  locals_ok U -> env_bytes_ok E -> get_param_set p = Some P -> constants_ok E P -> rng_wf rng -> keygen_call E P rng st q ->
  exists st' t pk sk, run U (c_keygen p P) st = Some (st', t) /\ nx st' = nx st /\ chg (nx st) (mm st) (mm st') (arrays q 5) /\
    iv st' 7 = N.to_nat (pk_params pk) /\ iv st' 8 = N.to_nat (sk_params sk) /\ iv st' 9 = N.to_nat (pk_params (sk_pk sk)) /\
    (forall j, j < 5 -> holds st' (q j) (key_pair_array pk sk j)) /\
    iv st' 5 = (if fst (rng 0 (stateSizeBytes P)) && fst (rng 1 (stateSizeBytes P)) then 1 else 0) /\
    (iv st' 5 = 1 -> pk_params pk = p /\ sk_params sk = p /\ sk_pk sk = pk /\ sk_wf sk /\ pk_wf pk /\
       lowmc_relation E P (sk_data sk) (pk_plaintext pk) (pk_ciphertext pk) /\
       forall i, bit (sk_data sk) i = (i <? stateSizeBits P) && bit (snd (rng 0 (stateSizeBytes P))) i /\
                 bit (pk_plaintext pk) i = (i <? stateSizeBits P) && bit (snd (rng 1 (stateSizeBytes P))) i) /\
    (iv st' 5 = 0 -> pk_params pk = p /\ sk_params sk = p /\ pk_ciphertext pk = zeros 32 /\ sk_pk sk = mkPk 0 (zeros 32) (zeros 32)).
Proof. exact keygen_code_is. Qed.
Print Assumptions C93_keygen_code.

(** Every parameter set, arrays holding anything, and a random source whose two calls succeed or fail. *)
Example C93_example : forall p P b l, get_param_set p = Some P -> (forall j, j < 5 -> length (l j) = 32 /\ bytes_ok (l j)) ->
  let rng := fun i n => (b i, snd (toy_rng i n)) in
  locals_ok zero_locals /\ env_bytes_ok toy_env /\ constants_ok toy_env P /\ rng_wf rng /\
  keygen_call toy_env P rng (keygen_state toy_env P rng l) (fun j => (j, 0)) /\
  (fst (rng 0 (stateSizeBytes P)) && fst (rng 1 (stateSizeBytes P)) = b 0 && b 1).
Proof.
  intros p P b l HP Hl rng. assert (W : rng_wf rng) by (intros i n; apply toy_rng_wf).
  split; [exact zero_locals_ok|]. split; [exact toy_env_bytes|]. split; [exact (toy_constants_all p P HP)|]. split; [exact W|].
  split; [apply keygen_called; auto; exact (toy_constants_all p P HP)|reflexivity].
Qed.

(** C94: whenever the random source delivers, the key pair that picnic_keygen leaves in one memory is accepted by
    picnic_validate_keypair on every memory that holds it. *)
Theorem C94_keygen_validate_code : forall U E p P rng st q,
  locals_ok U -> env_bytes_ok E -> get_param_set p = Some P -> constants_ok E P -> rng_wf rng -> keygen_call E P rng st q ->
  fst (rng 0 (stateSizeBytes P)) = true -> fst (rng 1 (stateSizeBytes P)) = true ->
  exists st' t pk sk, run U (c_keygen p P) st = Some (st', t) /\ iv st' 5 = 1 /\
    iv st' 7 = N.to_nat (pk_params pk) /\ iv st' 8 = N.to_nat (sk_params sk) /\ (forall j, j < 5 -> holds st' (q j) (key_pair_array pk sk j)) /\
    forall U2 st2, locals_ok U2 -> validate_call E P st2 sk pk ->
    exists st2' t2, run U2 (c_validate P) st2 = Some (st2', t2) /\ iv st2' 5 = 1.
Proof. exact keygen_validate_code. Qed.
Print Assumptions C94_keygen_validate_code.

(** The random source of the examples delivers, and there is a memory for the second call whatever the keys are. *)
Example C94_example : forall p P l, get_param_set p = Some P -> (forall j, j < 5 -> length (l j) = 32 /\ bytes_ok (l j)) ->
  keygen_call toy_env P toy_rng (keygen_state toy_env P toy_rng l) (fun j => (j, 0)) /\ rng_wf toy_rng /\
  fst (toy_rng 0 (stateSizeBytes P)) = true /\ fst (toy_rng 1 (stateSizeBytes P)) = true /\
  forall sk pk, sk_wf sk -> pk_wf pk -> validate_call toy_env P (validate_state toy_env P sk pk) sk pk.
Proof.
  intros p P l HP Hl. pose proof (toy_constants_all p P HP) as HC. split; [apply keygen_called; auto; exact toy_rng_wf|]. split; [exact toy_rng_wf|]. split; [reflexivity|]. split; [reflexivity|].
  intros sk pk W1 W2. apply validate_called; auto.
Qed.
