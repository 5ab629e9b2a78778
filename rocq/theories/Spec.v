(** Specification vocabulary, written independently of the model: bits of byte strings,
    vectors and matrices over GF(2), the LowMC block cipher, well-formed environments. *)

From Coq Require Import List NArith Arith Bool.
From Verif Require Import Base Params Env.
Import ListNotations.

(** ** Bytes and bits *)
Definition byte (x : N) : Prop := (x < 256)%N.
Definition bytes_ok (b : bytes) : Prop := Forall byte b.

(** Bit [i] of a byte string; bit 0 is the most significant bit of byte 0; bits outside the
    string are 0. *)
Definition bit (b : bytes) (i : nat) : bool :=
  N.testbit (nth (i / 8) b 0%N) (N.of_nat (7 - i mod 8)).

(** ** GF(2) *)
Definition vec := nat -> bool.
Definition matrix := nat -> nat -> bool.      (* row, column *)

Fixpoint xsum (n : nat) (f : nat -> bool) : bool :=
  match n with O => false | S n' => xorb (xsum n' f) (f n') end.

Definition vxor (u v : vec) : vec := fun i => xorb (u i) (v i).
Definition vzero : vec := fun _ => false.

(** Product of an [n]-column matrix and a vector. *)
Definition matvec (n : nat) (M : matrix) (v : vec) : vec :=
  fun i => xsum n (fun j => M i j && v j).

Definition matmul (n : nat) (A B : matrix) : matrix :=
  fun i k => xsum n (fun j => A i j && B j k).

Definition is_identity (n : nat) (A : matrix) : Prop :=
  forall i j, i < n -> j < n -> A i j = (i =? j).

(** Equality of [n]-bit vectors. *)
Definition veq (n : nat) (u v : vec) : Prop := forall i, i < n -> u i = v i.

(** ** LowMC *)

(** The 3-bit S-box: (a, b, c) -> (a + bc, a + b + ac, a + b + c + ab). Bits 3k, 3k+1, 3k+2
    of the state are c, b, a. *)
Definition sbox_layer (m : nat) (v : vec) : vec :=
  fun i =>
    if i <? 3 * m then
      let c := v (3 * (i / 3)) in
      let b := v (3 * (i / 3) + 1) in
      let a := v (3 * (i / 3) + 2) in
      match i mod 3 with
      | 0 => xorb (xorb (xorb a b) c) (a && b)
      | 1 => xorb (xorb a b) (a && c)
      | _ => xorb a (b && c)
      end
    else v i.

Record lowmc : Type := mkLowmc {
  lm_n : nat;                     (* block and key size in bits *)
  lm_m : nat;                     (* S-boxes per round *)
  lm_r : nat;                     (* rounds *)
  lm_K : nat -> matrix;           (* key matrices 0..r *)
  lm_L : nat -> matrix;           (* linear layer of round i+1 *)
  lm_C : nat -> vec               (* constant of round i+1 *)
}.

(** State after whitening and [i] rounds. *)
Fixpoint lowmc_state (L : lowmc) (key pt : vec) (i : nat) : vec :=
  match i with
  | O => vxor pt (matvec (lm_n L) (lm_K L 0) key)
  | S i' =>
      vxor (vxor (matvec (lm_n L) (lm_L L i') (sbox_layer (lm_m L) (lowmc_state L key pt i')))
                 (lm_C L i'))
           (matvec (lm_n L) (lm_K L (S i')) key)
  end.

Definition lowmc_enc (L : lowmc) (key pt : vec) : vec := lowmc_state L key pt (lm_r L).

(** A matrix stored row by row, each row padded to a multiple of 32 bits. *)
Definition mat_of_bytes (words : nat) (b : bytes) : matrix :=
  fun i j => bit b (32 * words * i + j).

(** The LowMC instance given by the constants of an environment. *)
Definition lowmc_of (E : env) (P : paramset) : lowmc :=
  {| lm_n := stateSizeBits P;
     lm_m := numSboxes P;
     lm_r := numRounds P;
     lm_K := fun i => mat_of_bytes (stateSizeWords P) (KMatrix E P i);
     lm_L := fun i => mat_of_bytes (stateSizeWords P) (LMatrix E P i);
     lm_C := fun i => bit (RConstant E P i) |}.

(** ** Environments *)

(** Hash output and uninitialised memory consist of the requested number of bytes. *)
Definition env_bytes_ok (E : env) : Prop :=
  (forall b m n, length (xof E b m n) = n /\ bytes_ok (xof E b m n)) /\
  (forall s i n, length (uninit E s i n) = n /\ bytes_ok (uninit E s i n)).

(** The constants have the sizes of the tables in lowmc_constants.c, and the padding bits of the
    round constants are zero. *)
Definition constants_ok (E : env) (P : paramset) : Prop :=
  (forall i, i <= numRounds P ->
     length (KMatrix E P i) = stateSizeBits P * (4 * stateSizeWords P)
     /\ bytes_ok (KMatrix E P i)) /\
  (forall i, i < numRounds P ->
     length (LMatrix E P i) = stateSizeBits P * (4 * stateSizeWords P)
     /\ bytes_ok (LMatrix E P i)) /\
  (forall i, i < numRounds P ->
     length (RConstant E P i) = 4 * stateSizeWords P
     /\ bytes_ok (RConstant E P i)
     /\ forall j, stateSizeBits P <= j -> bit (RConstant E P i) j = false).

(** The inverse tables used by Picnic3 are inverses (and have the same sizes). *)
Definition inverses_ok (E : env) (P : paramset) : Prop :=
  let n := stateSizeBits P in
  let W := stateSizeWords P in
  (length (KMatrixInv E P 0) = n * (4 * W) /\ bytes_ok (KMatrixInv E P 0)) /\
  is_identity n (matmul n (mat_of_bytes W (KMatrix E P 0)) (mat_of_bytes W (KMatrixInv E P 0))) /\
  (forall i, i < numRounds P ->
     length (LMatrixInv E P i) = n * (4 * W) /\ bytes_ok (LMatrixInv E P i) /\
     is_identity n (matmul n (mat_of_bytes W (LMatrix E P i)) (mat_of_bytes W (LMatrixInv E P i)))).

(** Two environments that differ at most in the contents of uninitialised memory. *)
Definition same_but_uninit (E E' : env) : Prop :=
  (forall b m n, xof E b m n = xof E' b m n) /\
  (forall P i, LMatrix E P i = LMatrix E' P i) /\
  (forall P i, LMatrixInv E P i = LMatrixInv E' P i) /\
  (forall P i, KMatrix E P i = KMatrix E' P i) /\
  (forall P i, KMatrixInv E P i = KMatrixInv E' P i) /\
  (forall P i, RConstant E P i = RConstant E' P i).

(** Two-sided inverse. *)
Definition invertible (n : nat) (M : matrix) : Prop :=
  exists M', is_identity n (matmul n M M') /\ is_identity n (matmul n M' M).
