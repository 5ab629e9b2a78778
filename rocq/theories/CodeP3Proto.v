(** How the programs of Picnic3 work together: tapes and mask as the computation of the auxiliary bits leaves them. *)

From Coq Require Import List NArith Arith Bool.
From Verif Require Import Base Params Env Spec MiniC CodeP3 CodeSpec CodeZkbSpec CodeP3Spec.
Import ListNotations.

(** The bytes [tl] and [msk] are the tapes and the mask of the key found in a memory after [computeAuxTape] (/repo/picnic3_impl.c:168)
    was called with the flag for the inputs set, from some memory that meets its requirements. *)
Definition preprocessed (U : nat -> nat -> bytes) (E : env) (P : paramset) (tl : list bytes) (msk : bytes) : Prop :=
  exists st st' t tl0 qt q, aux_call E P st tl0 qt (Some q) /\
    run U (c_computeAuxTape P 0 1 2 3 4 0 (IV 1)) st = Some (st', t) /\
    length tl = 16 /\ (forall i, i < 15 -> nth i tl [] = nth i tl0 []) /\
    pts (nx st) (mm st') qt (nth 15 tl []) /\ length (nth 15 tl []) = 2 * andSizeBytes P /\
    pts (nx st) (mm st') q msk /\ length msk = stateSizeBytes P.

(** [mk] is the key [key] with the mask [msk] added. *)
Definition masks (P : paramset) (msk key mk : bytes) : Prop :=
  forall i, i < stateSizeBits P -> bit mk i = xorb (bit key i) (bit msk i).

(** [pub] starts with the LowMC encryption of [pt] under [key], padded with zero bits. *)
Definition is_ciphertext (E : env) (P : paramset) (key pt pub : bytes) : Prop :=
  forall i, i < 8 * stateSizeBytes P ->
    bit pub i = if i <? stateSizeBits P then lowmc_enc (lowmc_of E P) (bit key) (bit pt) i else false.

(** The caller of [getAuxBits]: variable 0 holds the address of the output [out], 1 those of the tapes. *)
Record get_call (P : paramset) (st : state) (tl : list bytes) (out : bytes) (q : ptr) : Prop := {
  gc_len : length tl = 16 /\ forall i, i < 16 -> length (nth i tl []) = 2 * andSizeBytes P /\ bytes_ok (nth i tl []);
  gc_out : pv st 0 = [q] /\ holds st q out /\ stateSizeBits P * numRounds P <= 8 * length out;
  gc_last : exists qt, nth_error (pv st 1) 15 = Some qt /\ reads st [(q, length out)] qt (nth 15 tl [])
}.

(** The caller of [setAuxBits]: variable 0 holds the addresses of the tapes, 1 that of the input [a]. *)
Record set_call (P : paramset) (st : state) (tl : list bytes) (a : bytes) (qt : ptr) : Prop := {
  sc_len : length tl = 16 /\ forall i, i < 16 -> length (nth i tl []) = 2 * andSizeBytes P /\ bytes_ok (nth i tl []);
  sc_last : nth_error (pv st 0) 15 = Some qt /\ holds st qt (nth 15 tl []);
  sc_in : exists q, pv st 1 = [q] /\ reads st [(qt, 2 * andSizeBytes P)] q a /\ stateSizeBits P * numRounds P <= 8 * length a
}.
