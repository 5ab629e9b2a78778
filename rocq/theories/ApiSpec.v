(** Vocabulary for the API properties: key structures and their byte encodings. *)

From Coq Require Import List NArith Arith Bool.
From Verif Require Import Base Params Env Spec Api.
Import ListNotations.

(** The C structures hold arrays of 32 bytes. *)
Definition block_wf (b : bytes) : Prop := length b = 32 /\ bytes_ok b.
Definition pk_wf (pk : publickey) : Prop :=
  block_wf (pk_plaintext pk) /\ block_wf (pk_ciphertext pk).
Definition sk_wf (sk : privatekey) : Prop := block_wf (sk_data sk) /\ pk_wf (sk_pk sk).

(** The unused low bits of the last byte of a block are zero. *)
Definition padding_zero (P : paramset) (b : bytes) : Prop :=
  forall i, stateSizeBits P <= i < 8 * stateSizeBytes P -> bit b i = false.

(** The first [stateSizeBytes] bytes of an array. *)
Definition block (P : paramset) (b : bytes) : bytes := firstn (stateSizeBytes P) b.

(** Public key encoding: parameter byte, ciphertext, plaintext. *)
Definition pk_encoding (P : paramset) (pk : publickey) : bytes :=
  pk_params pk :: block P (pk_ciphertext pk) ++ block P (pk_plaintext pk).

(** Private key encoding: parameter byte, secret, ciphertext, plaintext. *)
Definition sk_encoding (P : paramset) (sk : privatekey) : bytes :=
  sk_params sk :: block P (sk_data sk)
               ++ block P (pk_ciphertext (sk_pk sk)) ++ block P (pk_plaintext (sk_pk sk)).

Definition pk_padding_zero (P : paramset) (pk : publickey) : Prop :=
  padding_zero P (pk_plaintext pk) /\ padding_zero P (pk_ciphertext pk).
Definition sk_padding_zero (P : paramset) (sk : privatekey) : Prop :=
  padding_zero P (sk_data sk) /\ pk_padding_zero P (sk_pk sk).

(** Two public keys with the same parameters and the same blocks. *)
Definition pk_same (P : paramset) (a b : publickey) : Prop :=
  pk_params a = pk_params b /\
  block P (pk_plaintext a) = block P (pk_plaintext b) /\
  block P (pk_ciphertext a) = block P (pk_ciphertext b).

(** [b] starts with the encoding of a public key. *)
Definition starts_with_pk (b : bytes) : Prop :=
  exists P c t rest p,
    get_param_set p = Some P /\ b = p :: c ++ t ++ rest /\
    length c = stateSizeBytes P /\ length t = stateSizeBytes P /\
    padding_zero P c /\ padding_zero P t.

(** [b] starts with the encoding of a private key. *)
Definition starts_with_sk (b : bytes) : Prop :=
  exists P d c t rest p,
    get_param_set p = Some P /\ b = p :: d ++ c ++ t ++ rest /\
    length d = stateSizeBytes P /\ length c = stateSizeBytes P /\ length t = stateSizeBytes P /\
    padding_zero P d /\ padding_zero P c /\ padding_zero P t.

(** The LowMC relation between a secret, a plaintext and a ciphertext array, on the block bytes
    (padding bits of the ciphertext are zero). *)
Definition lowmc_relation (E : env) (P : paramset) (secret plaintext ciphertext : bytes) : Prop :=
  (forall i, i < stateSizeBits P ->
     bit ciphertext i = lowmc_enc (lowmc_of E P) (bit secret) (bit plaintext) i) /\
  padding_zero P ciphertext.

(** The random source delivers the requested number of bytes. *)
Definition rng_wf (rng : nat -> nat -> bool * bytes) : Prop :=
  forall i n, length (snd (rng i n)) = n /\ bytes_ok (snd (rng i n)).
