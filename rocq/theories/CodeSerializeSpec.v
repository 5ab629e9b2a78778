(** The situation in which ZKB++ signatures are written as bytes on memory. *)

From Coq Require Import List NArith Arith Bool.
From Verif Require Import Base Params Env Spec Picnic1 MiniC CodeSpec CodeZkbSpec CodeSignAllSpec Api.
Import ListNotations.

Section Spec.
Variable P : paramset.
(** The caller's buffer of [buf] bytes, of which [len] may be used, lies at [qb], outside of the buffers of the signature. *)
Definition output_room (st : state) (q : nat -> ptr) (qb : ptr) (buf : bytes) (len : nat) : Prop :=
  holds st qb buf /\ len <= length buf /\
  forall i, inner P < i -> i < signer_count P -> disj qb (length buf) (q i) (signer_size P i).

(** The caller of serializeSignature. *)
Record serialize_call (st : state) (q : nat -> ptr) (qb : ptr) (buf : bytes) (len : nat) (s : signature) : Prop := {
  se_len : iv st 0 = len;
  se_room : output_room st q qb buf len;
  se_sig : signature_stored P st q s;
  se_out : pv st 0 = [qb];
  se_chal : pv st 1 = [q (inner P + 2)];
  se_salt : pv st 2 = [q (inner P + 1)];
  se_proofs : forall k e, k < numMPCRounds P -> e < proof_bufs P -> nth_error (pv st 3) (proof_bufs P * k + e) = Some (q (proof_at P k e))
}.

(** The caller of picnic_sign, which is about to call sign_picnic1 with the arrays of the key [k], of the plaintext of which
    only whole words of the block are needed; the output lies outside of all buffers used for signing. *)
Record api_call (E : env) (st : state) (q : nat -> ptr) (qb : ptr) (buf : bytes) (len : nat) (k : privatekey) (msg : bytes) : Prop := {
  ap_sign : signer_call P E st q (sk_data k) (pk_ciphertext (sk_pk k)) (firstn (4 * stateSizeWords P) (pk_plaintext (sk_pk k))) msg;
  ap_len : iv st 10 = len;
  ap_sig : pv st 25 = [qb];
  ap_room : holds st qb buf /\ len <= length buf;
  ap_apart : forall i, i < signer_count P -> disj qb (length buf) (q i) (signer_size P i)
}.
End Spec.
