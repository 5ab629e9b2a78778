(** The externals of the model: the hash function, the LowMC constants (the file
    lowmc_constants.c is not part of the repository), the contents of
    uninitialised memory. *)

From Coq Require Import List NArith Arith Bool.
From Verif Require Import Base Params.
Import ListNotations.

Record env : Type := mkEnv {
  (** SHAKE: [xof true] is SHAKE128, [xof false] is SHAKE256; message, output length. *)
  xof : bool -> bytes -> nat -> bytes;
  (** Contents of memory the code does not initialise: program site, instance (e.g.
      the index of the MPC round), length. *)
  uninit : nat -> nat -> nat -> bytes;
  (** lowmc_constants.h: memory image (bytes) of the constant tables. *)
  LMatrix : paramset -> nat -> bytes;
  LMatrixInv : paramset -> nat -> bytes;
  KMatrix : paramset -> nat -> bytes;
  KMatrixInv : paramset -> nat -> bytes;
  RConstant : paramset -> nat -> bytes
}.

(** Hash prefixes, hash.h:28-34. [None] is HASH_PREFIX_NONE. *)
Definition HASH_PREFIX_NONE : option N := None.
Definition HASH_PREFIX_0 : option N := Some 0%N.
Definition HASH_PREFIX_1 : option N := Some 1%N.
Definition HASH_PREFIX_2 : option N := Some 2%N.
Definition HASH_PREFIX_3 : option N := Some 3%N.
Definition HASH_PREFIX_4 : option N := Some 4%N.
Definition HASH_PREFIX_5 : option N := Some 5%N.

Definition prefix_bytes (p : option N) : bytes :=
  match p with None => [] | Some x => [x] end.

(** hash.c:31-43: SHAKE128 for block size 128/129, SHAKE256 otherwise. *)
Definition use_shake128 (P : paramset) : bool :=
  (stateSizeBits P =? 128) || (stateSizeBits P =? 129).

(** HashInit; HashUpdate for each chunk; HashFinal; HashSqueeze(outLen).
    That only the concatenation of the chunks matters is proved for the concrete
    sponge in KeccakProofs.v. *)
Definition hash (E : env) (P : paramset) (prefix : option N) (chunks : list bytes)
           (outLen : nat) : bytes :=
  xof E (use_shake128 P) (prefix_bytes prefix ++ concat chunks) outLen.

(** hash.c:83-88 [HashUpdateIntLE]: 16-bit little-endian encoding; the argument is
    converted to [uint16_t]. *)
Definition intLE (x : nat) : bytes :=
  let n := N.of_nat x in
  [N.modulo n 256; N.modulo (N.div n 256) 256].
