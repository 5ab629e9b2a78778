(** Keys to and from bytes, and the check of a key pair, as programs on memory with pointers. *)

From Coq Require Import List NArith Arith Bool Lia.
From Verif Require Import Base Params Env Spec LowMC MiniC CodeLowMC CodeSpec CodeZkbSpec CodeKeys CodeKeysSpec Api ApiSpec.
From Verif Require Import BaseFacts ParamFacts ApiFacts CodeWitness CodeKeysThm Witness.
Import ListNotations.

(** C89: picnic_write_public_key and picnic_write_private_key on memory run to the end, change only the caller's buffer, and
    leave the encoding of the key at its start, followed by what was there, or, if the caller's length is too small, fail
    with the buffer unchanged. *)
Theorem C89_write_public_key_code : forall U P st qb buf len key,
  get_param_set (pk_params key) = Some P -> pk_wf key ->
  write_call st qb buf len [pk_ciphertext key; pk_plaintext key] ->
  exists st' t, run U (c_write_key (pk_params key) P 2) st = Some (st', t) /\ nx st' = nx st /\ chg (nx st) (mm st) (mm st') [(qb, length buf)] /\
    if len <? 1 + 2 * stateSizeBytes P then iv st' 5 = 0 /\ holds st' qb buf
    else iv st' 5 = 1 + 2 * stateSizeBytes P /\ holds st' qb (pk_encoding P key ++ skipn (1 + 2 * stateSizeBytes P) buf).
Proof. exact write_public_code. Qed.
Print Assumptions C89_write_public_key_code.

Theorem C89_write_private_key_code : forall U P st qb buf len key,
  get_param_set (sk_params key) = Some P -> sk_wf key ->
  write_call st qb buf len [sk_data key; pk_ciphertext (sk_pk key); pk_plaintext (sk_pk key)] ->
  exists st' t, run U (c_write_key (sk_params key) P 3) st = Some (st', t) /\ nx st' = nx st /\ chg (nx st) (mm st) (mm st') [(qb, length buf)] /\
    if len <? 1 + 3 * stateSizeBytes P then iv st' 5 = 0 /\ holds st' qb buf
    else iv st' 5 = 1 + 3 * stateSizeBytes P /\ holds st' qb (sk_encoding P key ++ skipn (1 + 3 * stateSizeBytes P) buf).
Proof. exact write_private_code. Qed.
Print Assumptions C89_write_private_key_code.

(** A key made by picnic_keygen, for every parameter set; every buffer and length. *)
Example C89_example : forall p P buf len, get_param_set p = Some P -> bytes_ok buf -> len <= length buf ->
  let pk := toy_pk p in let sk := toy_sk p in
  pk_params pk = p /\ sk_params sk = p /\ pk_wf pk /\ sk_wf sk /\
  write_call (key_state [pk_ciphertext pk; pk_plaintext pk] buf len (N.to_nat p)) (2, 0) buf len [pk_ciphertext pk; pk_plaintext pk] /\
  write_call (key_state [sk_data sk; pk_ciphertext (sk_pk sk); pk_plaintext (sk_pk sk)] buf len (N.to_nat p)) (3, 0) buf len
    [sk_data sk; pk_ciphertext (sk_pk sk); pk_plaintext (sk_pk sk)].
Proof.
  intros p P buf len HP Bb Hl pk sk. destruct (toy_keys_spec p P HP) as (_ & K1 & K2 & K3 & K4 & K5 & _). fold pk sk in K1, K2, K3, K4, K5.
  split; [exact K1|]. split; [exact K2|]. split; [exact K5|]. split; [exact K4|]. destruct K5 as [[_ B1] [_ B2]]. destruct K4 as [[_ B3] [[_ B4] [_ B5]]]. split.
  - apply (key_write_call [pk_ciphertext pk; pk_plaintext pk]); auto. intros [|[|[|j]]] l E; try discriminate E; injection E as <-; assumption.
  - apply (key_write_call [sk_data sk; pk_ciphertext (sk_pk sk); pk_plaintext (sk_pk sk)]); auto. intros [|[|[|[|j]]]] l E; try discriminate E; injection E as <-; assumption.
Qed.

(** C90: picnic_read_public_key and picnic_read_private_key on memory run to the end for every byte string, read nothing past
    it, change only the arrays of the key, succeed exactly on strings that start with the encoding of a key, and then the
    arrays hold that key; the bytes of the arrays past the blocks are as before (public keys) or zero (private keys). *)
Theorem C90_read_public_key_code : forall U st q qb buf key,
  pk_wf key ->
  read_call st q qb buf [pk_ciphertext key; pk_plaintext key] -> iv st 7 = N.to_nat (pk_params key) ->
  exists st' t k, run U (c_read_key 2 false) st = Some (st', t) /\ nx st' = nx st /\ chg (nx st) (mm st) (mm st') (arrays q 2) /\
    iv st' 7 = N.to_nat (pk_params k) /\ holds st' (q 0) (pk_ciphertext k) /\ holds st' (q 1) (pk_plaintext k) /\ pk_wf k /\
    ((iv st' 5 = 0 /\ ~ starts_with_pk buf) \/
     (iv st' 5 = 1 /\ starts_with_pk buf /\ exists P, get_param_set (pk_params k) = Some P /\ pk_padding_zero P k /\
        buf = pk_encoding P k ++ skipn (1 + 2 * stateSizeBytes P) buf /\
        skipn (stateSizeBytes P) (pk_plaintext k) = skipn (stateSizeBytes P) (pk_plaintext key) /\
        skipn (stateSizeBytes P) (pk_ciphertext k) = skipn (stateSizeBytes P) (pk_ciphertext key))).
Proof. exact read_public_code. Qed.
Print Assumptions C90_read_public_key_code.

Theorem C90_read_private_key_code : forall U st q qb buf key,
  sk_wf key ->
  read_call st q qb buf [sk_data key; pk_ciphertext (sk_pk key); pk_plaintext (sk_pk key)] ->
  iv st 7 = N.to_nat (sk_params key) -> iv st 8 = N.to_nat (pk_params (sk_pk key)) ->
  exists st' t k, run U (c_read_key 3 true) st = Some (st', t) /\ nx st' = nx st /\ chg (nx st) (mm st) (mm st') (arrays q 3) /\
    iv st' 7 = N.to_nat (sk_params k) /\ iv st' 8 = N.to_nat (pk_params (sk_pk k)) /\
    holds st' (q 0) (sk_data k) /\ holds st' (q 1) (pk_ciphertext (sk_pk k)) /\ holds st' (q 2) (pk_plaintext (sk_pk k)) /\ sk_wf k /\
    ((iv st' 5 = 0 /\ ~ starts_with_sk buf) \/
     (iv st' 5 = 1 /\ starts_with_sk buf /\ exists P, get_param_set (sk_params k) = Some P /\ sk_padding_zero P k /\ pk_params (sk_pk k) = sk_params k /\
        buf = sk_encoding P k ++ skipn (1 + 3 * stateSizeBytes P) buf /\
        skipn (stateSizeBytes P) (sk_data k) = zeros (32 - stateSizeBytes P) /\
        skipn (stateSizeBytes P) (pk_plaintext (sk_pk k)) = zeros (32 - stateSizeBytes P) /\
        skipn (stateSizeBytes P) (pk_ciphertext (sk_pk k)) = zeros (32 - stateSizeBytes P))).
Proof. exact read_private_code. Qed.
Print Assumptions C90_read_private_key_code.

(** Every byte string; a key as left by picnic_keygen before. *)
Example C90_example : forall p P buf, get_param_set p = Some P -> bytes_ok buf ->
  let pk := toy_pk p in let sk := toy_sk p in
  let st := key_state [pk_ciphertext pk; pk_plaintext pk] buf (length buf) (N.to_nat p) in
  let st3 := key_state [sk_data sk; pk_ciphertext (sk_pk sk); pk_plaintext (sk_pk sk)] buf (length buf) (N.to_nat p) in
  pk_wf pk /\ sk_wf sk /\ iv st 7 = N.to_nat (pk_params pk) /\ iv st3 7 = N.to_nat (sk_params sk) /\ iv st3 8 = N.to_nat (pk_params (sk_pk sk)) /\
  read_call st (fun j => (j, 0)) (2, 0) buf [pk_ciphertext pk; pk_plaintext pk] /\
  read_call st3 (fun j => (j, 0)) (3, 0) buf [sk_data sk; pk_ciphertext (sk_pk sk); pk_plaintext (sk_pk sk)].
Proof.
  intros p P buf HP Bb pk sk st st3. destruct (toy_keys_spec p P HP) as (_ & K1 & K2 & K3 & K4 & K5 & _). fold pk sk in K1, K2, K3, K4, K5.
  split; [exact K5|]. split; [exact K4|]. split; [rewrite K1; reflexivity|]. split; [rewrite K2; reflexivity|]. split; [rewrite K3, K1; reflexivity|].
  destruct K5 as [[_ B1] [_ B2]]. destruct K4 as [[_ B3] [[_ B4] [_ B5]]]. split.
  - apply (key_read_call [pk_ciphertext pk; pk_plaintext pk]); auto. intros [|[|[|j]]] l E; try discriminate E; injection E as <-; assumption.
  - apply (key_read_call [sk_data sk; pk_ciphertext (sk_pk sk); pk_plaintext (sk_pk sk)]); auto. intros [|[|[|[|j]]]] l E; try discriminate E; injection E as <-; assumption.
Qed.

(** Both outcomes occur: the encoding of a key is accepted, the empty string is not. *)
Example C90_outcomes : forall p P rest, get_param_set p = Some P -> starts_with_pk (pk_encoding P (toy_pk p) ++ rest) /\ ~ starts_with_pk [].
Proof.
  intros p P rest HP. destruct (toy_keys_spec p P HP) as (_ & K1 & _ & _ & _ & [[L1 _] [L2 _]] & _ & Z). pose proof (get_param_set_wfP _ _ HP) as Hw. destruct (wfP_block P Hw) as [_ Hn].
  split; [|intros (P' & c & t & r & q & _ & H & _); discriminate H].
  exists P, (block P (pk_ciphertext (toy_pk p))), (block P (pk_plaintext (toy_pk p))), rest, p. split; [exact HP|]. split; [unfold pk_encoding; rewrite K1; cbn [app]; rewrite <- app_assoc; reflexivity|].
  split; [apply length_block; auto|]. split; [apply length_block; auto|].
  split; intros i Hi; unfold block; rewrite bit_firstn by lia; apply Z; lia.
Qed.

(** C91: what is written from one memory is read back in any other memory as the same key. *)
Theorem C91_public_key_code_round_trip : forall U P st qb buf len key,
  get_param_set (pk_params key) = Some P -> pk_wf key -> pk_padding_zero P key ->
  write_call st qb buf len [pk_ciphertext key; pk_plaintext key] -> 1 + 2 * stateSizeBytes P <= len ->
  exists st' t out, run U (c_write_key (pk_params key) P 2) st = Some (st', t) /\ iv st' 5 = 1 + 2 * stateSizeBytes P /\ holds st' qb out /\
    forall U2 st2 q q2 key2, pk_wf key2 -> read_call st2 q q2 out [pk_ciphertext key2; pk_plaintext key2] -> iv st2 7 = N.to_nat (pk_params key2) ->
    exists st2' t2 k, run U2 (c_read_key 2 false) st2 = Some (st2', t2) /\ iv st2' 5 = 1 /\ iv st2' 7 = N.to_nat (pk_params k) /\
      holds st2' (q 0) (pk_ciphertext k) /\ holds st2' (q 1) (pk_plaintext k) /\ pk_wf k /\ pk_same P k key.
Proof. exact public_key_code_round_trip. Qed.
Print Assumptions C91_public_key_code_round_trip.

Theorem C91_private_key_code_round_trip : forall U P st qb buf len key,
  get_param_set (sk_params key) = Some P -> sk_wf key -> sk_padding_zero P key ->
  write_call st qb buf len [sk_data key; pk_ciphertext (sk_pk key); pk_plaintext (sk_pk key)] -> 1 + 3 * stateSizeBytes P <= len ->
  let padded x := block P x ++ zeros (32 - stateSizeBytes P) in
  exists st' t out, run U (c_write_key (sk_params key) P 3) st = Some (st', t) /\ iv st' 5 = 1 + 3 * stateSizeBytes P /\ holds st' qb out /\
    forall U2 st2 q q2 key2, sk_wf key2 -> read_call st2 q q2 out [sk_data key2; pk_ciphertext (sk_pk key2); pk_plaintext (sk_pk key2)] ->
    iv st2 7 = N.to_nat (sk_params key2) -> iv st2 8 = N.to_nat (pk_params (sk_pk key2)) ->
    exists st2' t2, run U2 (c_read_key 3 true) st2 = Some (st2', t2) /\ iv st2' 5 = 1 /\ iv st2' 7 = N.to_nat (sk_params key) /\ iv st2' 8 = N.to_nat (sk_params key) /\
      holds st2' (q 0) (padded (sk_data key)) /\ holds st2' (q 1) (padded (pk_ciphertext (sk_pk key))) /\ holds st2' (q 2) (padded (pk_plaintext (sk_pk key))).
Proof. exact private_key_code_round_trip. Qed.
Print Assumptions C91_private_key_code_round_trip.

(** A key made by picnic_keygen, for every parameter set (the memories are those of the examples of C89 and C90). *)
Example C91_example : forall p P buf, get_param_set p = Some P -> bytes_ok buf -> 1 + 3 * stateSizeBytes P <= length buf ->
  let pk := toy_pk p in let sk := toy_sk p in
  pk_params pk = p /\ sk_params sk = p /\ pk_wf pk /\ sk_wf sk /\ pk_padding_zero P pk /\ sk_padding_zero P sk /\ 1 + 2 * stateSizeBytes P <= length buf /\
  write_call (key_state [pk_ciphertext pk; pk_plaintext pk] buf (length buf) (N.to_nat p)) (2, 0) buf (length buf) [pk_ciphertext pk; pk_plaintext pk] /\
  write_call (key_state [sk_data sk; pk_ciphertext (sk_pk sk); pk_plaintext (sk_pk sk)] buf (length buf) (N.to_nat p)) (3, 0) buf (length buf)
    [sk_data sk; pk_ciphertext (sk_pk sk); pk_plaintext (sk_pk sk)].
Proof.
  intros p P buf HP Bb Hl pk sk. destruct (C89_example p P buf (length buf) HP Bb (le_n _)) as (A1 & A2 & A3 & A4 & A5 & A6). destruct (toy_padding p P HP) as [Z1 Z2].
  split; [exact A1|]. split; [exact A2|]. split; [exact A3|]. split; [exact A4|]. split; [exact Z2|]. split; [exact Z1|]. split; [lia|]. split; [exact A5|exact A6].
Qed.

(** C92: picnic_validate_keypair on memory runs to the end, changes no memory of the caller, and succeeds exactly if the two keys
    have the same parameter set and the ciphertext is the LowMC encryption of the plaintext under the secret, with zero
    padding. *)
Theorem C92_validate_keypair_code : forall U E P st sk pk,
  locals_ok U -> env_bytes_ok E -> get_param_set (pk_params pk) = Some P -> constants_ok E P ->
  sk_wf sk -> pk_wf pk -> validate_call E P st sk pk ->
  exists st' t, run U (c_validate P) st = Some (st', t) /\ nx st' = nx st /\ chg (nx st) (mm st) (mm st') [] /\
    (iv st' 5 = 0 \/ iv st' 5 = 1) /\
    (iv st' 5 = 1 <-> sk_params sk = pk_params pk /\ lowmc_relation E P (sk_data sk) (pk_plaintext pk) (pk_ciphertext pk)).
Proof. exact validate_code_is. Qed.
Print Assumptions C92_validate_keypair_code.

(** A key pair made by picnic_keygen, for every parameter set, is accepted; with another secret or set it may be called as well. *)
Example C92_example : forall p P p' sk, get_param_set p = Some P -> sk = toy_sk p \/ sk = toy_sk p' /\ is_valid_params p' = true ->
  let pk := toy_pk p in
  locals_ok zero_locals /\ env_bytes_ok toy_env /\ get_param_set (pk_params pk) = Some P /\ constants_ok toy_env P /\ sk_wf sk /\ pk_wf pk /\
  validate_call toy_env P (validate_state toy_env P sk pk) sk pk /\
  (sk = toy_sk p -> sk_params sk = pk_params pk /\ lowmc_relation toy_env P (sk_data sk) (pk_plaintext pk) (pk_ciphertext pk)).
Proof.
  intros p P p' sk HP Hs pk. destruct (toy_keys_spec p P HP) as (_ & K1 & K2 & K3 & K4 & K5 & K6 & _). fold pk in K1, K3, K5, K6.
  assert (HC : constants_ok toy_env P) by exact (toy_constants_all p P HP).
  assert (W : sk_wf sk). { destruct Hs as [->|[-> V]]; [exact K4|]. destruct (get_param_set_valid p' V) as [P' HP']. apply (toy_keys_spec p' P' HP'). }
  split; [exact zero_locals_ok|]. split; [exact toy_env_bytes|]. split; [rewrite K1; exact HP|]. split; [exact HC|]. split; [exact W|]. split; [exact K5|].
  split; [apply validate_called; auto|]. intros ->. split; [congruence|exact K6].
Qed.
