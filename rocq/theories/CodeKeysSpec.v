(** The situations in which keys are written to bytes, read from bytes and checked on memory. *)

From Coq Require Import List NArith Arith Bool.
From Verif Require Import Base Params Env Spec MiniC CodeSpec CodeZkbSpec Api.
Import ListNotations.

(** The caller of picnic_write_public_key or picnic_write_private_key: the arrays of the key hold [ls], and the caller's
    buffer at [qb] holds [buf], of which [len] bytes may be used. *)
Record write_call (st : state) (qb : ptr) (buf : bytes) (len : nat) (ls : list bytes) : Prop := {
  wk_len : iv st 0 = len;
  wk_buf : pv st 0 = [qb] /\ holds st qb buf /\ len <= length buf;
  wk_arrays : forall j l, nth_error ls j = Some l -> exists p, nth_error (pv st 1) j = Some p /\ reads st [(qb, length buf)] p l
}.

(** The arrays of a key at [q]. *)
Definition arrays (q : nat -> ptr) (m : nat) : list (ptr * nat) := map (fun j => (q j, PICNIC_MAX_LOWMC_BLOCK_SIZE)) (seq 0 m).

(** The caller of picnic_read_public_key or picnic_read_private_key with [buf], at [qb]; the arrays of the key hold [ls]. *)
Record read_call (st : state) (q : nat -> ptr) (qb : ptr) (buf : bytes) (ls : list bytes) : Prop := {
  rk_len : iv st 0 = length buf;
  rk_buf : pv st 0 = [qb] /\ reads st (arrays q (length ls)) qb buf;
  rk_apart : apart (arrays q (length ls));
  rk_arrays : forall j l, nth_error ls j = Some l -> nth_error (pv st 1) j = Some (q j) /\ holds st (q j) l
}.

(** The caller of picnic_validate_keypair. *)
Record validate_call (E : env) (P : paramset) (st : state) (sk : privatekey) (pk : publickey) : Prop := {
  vk_params : iv st 0 = N.to_nat (pk_params pk) /\ iv st 1 = N.to_nat (sk_params sk);
  vk_pt : exists p, pv st 0 = [p] /\ holds st p (pk_plaintext pk);
  vk_key : exists p, pv st 1 = [p] /\ holds st p (sk_data sk) /\ aligned p;
  vk_ct : exists p, pv st 6 = [p] /\ holds st p (pk_ciphertext pk);
  vk_K : constants st 2 (numRounds P + 1) (KMatrix E P) [];
  vk_L : constants st 3 (numRounds P) (LMatrix E P) [];
  vk_C : constants st 4 (numRounds P) (RConstant E P) []
}.

(** The caller of picnic_keygen: the arrays, at [q], hold anything; [rng i n] is what the call number [i] of picnic_random_bytes for
    [n] bytes delivers. *)
Record keygen_call (E : env) (P : paramset) (rng : nat -> nat -> bool * bytes) (st : state) (q : nat -> ptr) : Prop := {
  kg_apart : apart (arrays q 5);
  kg_arrays : forall j, j < 5 -> nth_error (pv st 1) j = Some (q j) /\ aligned (q j) /\ exists l, holds st (q j) l /\ length l = PICNIC_MAX_LOWMC_BLOCK_SIZE;
  kg_rng : forall i, i < 2 -> iv st (10 + i) = (if fst (rng i (stateSizeBytes P)) then 1 else 0) /\
    exists r, pv st (2 + i) = [r] /\ reads st (arrays q 5) r (snd (rng i (stateSizeBytes P)));
  kg_K : constants st 4 (numRounds P + 1) (KMatrix E P) (arrays q 5);
  kg_L : constants st 5 (numRounds P) (LMatrix E P) (arrays q 5);
  kg_C : constants st 6 (numRounds P) (RConstant E P) (arrays q 5)
}.
(** The arrays of two keys in the order of picnic_keygen's program. *)
Definition key_pair_array (pk : publickey) (sk : privatekey) (j : nat) : bytes :=
  match j with 0 => pk_ciphertext pk | 1 => pk_plaintext pk | 2 => sk_data sk | 3 => pk_ciphertext (sk_pk sk) | _ => pk_plaintext (sk_pk sk) end.
