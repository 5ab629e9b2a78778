(** The situation in which the functions that hash are called, and what is said about them. *)

From Coq Require Import List NArith Arith Bool.
From Verif Require Import Base Params Spec MiniC CodeSpec HashSpec CodeKeccakSpec CodeHashUses.
Import ListNotations.

(** Pointer 0: the round constants at [qr]. *)
Definition constants (st : state) (qr : ptr) : Prop :=
  pv st 0 = [qr] /\ snd qr mod 8 = 0 /\ pts (nx st) (mm st) qr round_constant_bytes.
(** Entry [i] of variable [a] is room of [n] bytes at [p], apart from the constants. *)
Definition room_at (st : state) (qr : ptr) (a i : nat) (p : ptr) (n : nat) : Prop :=
  nth_error (pv st a) i = Some p /\ (exists d, length d = n /\ pts (nx st) (mm st) p d) /\ disj p n qr 192.
(** Entry [i] of variable [a] points to [l], of at least [n] bytes. *)
Definition holds (st : state) (a i n : nat) (l : bytes) : Prop :=
  exists p, nth_error (pv st a) i = Some p /\ pts (nx st) (mm st) p l /\ bytes_ok l /\ n <= length l /\ short l.
(** The same, and its first [n] bytes are outside [k] bytes at [q]. *)
Definition holds_off (q : ptr) (k : nat) (st : state) (a i n : nat) (l : bytes) : Prop :=
  exists p, nth_error (pv st a) i = Some p /\ pts (nx st) (mm st) p l /\ bytes_ok l /\ n <= length l /\ short l /\ disj q k p n.

(** The same for the first entries of [a], and for three entries for each of [cnt] rounds. *)
Definition holds_list (st : state) (a cnt n : nat) (l : list bytes) : Prop :=
  forall i, i < cnt -> exists x, nth_error l i = Some x /\ holds st a i n x.
Definition holds_triples (st : state) (a cnt n n' : nat) (l : list (bytes * bytes * bytes)) : Prop :=
  forall i, i < cnt -> exists x y z, nth_error l i = Some (x, y, z) /\ holds st a (3 * i) n x /\ holds st a (3 * i + 1) n y /\ holds st a (3 * i + 2) n' z.

(** Between [st] and [st']: [d] is left at [p], nothing else changes, and no hash function reports an error. *)
Definition leaves (st st' : state) (p : ptr) (d : bytes) : Prop :=
  pts (nx st) (mm st') p d /\ chg (nx st) (mm st) (mm st') [(p, length d)] /\
  iv st' 11 = iv st 11 /\ dv st' = dv st /\ (forall a, pv st' a = pv st a) /\ nx st' = nx st.
Definition writes (U : nat -> nat -> bytes) (s : stmt) (st : state) (p : ptr) (d : bytes) : Prop :=
  exists st' t, run U s st = Some (st', t) /\ leaves st st' p d.

(** The functions that hash. *)
Inductive hashes (P : paramset) : stmt -> Prop :=
| h_Commit : hashes P (c_Commit P)
| h_tape r j n : hashes P (c_createRandomTape P r j n)
| h_G v : hashes P (c_G P v)
| h_seeds n : hashes P (c_computeSeeds P n)
| h_derive n k : hashes P (c_derive P n k)
| h_H3 n : hashes P (c_H3_hash P n)
| h_commit x t j : hashes P (c_commit P x t j)
| h_commit_h : hashes P (c_commit_h P)
| h_commit_v k : hashes P (c_commit_v P k)
| h_HCP n : hashes P (c_HCP_hash P n)
| h_tapes t n : hashes P (c_createRandomTapes P t n)
| h_seed f r j : hashes P (c_hashSeed P f r j)
| h_parent x p : hashes P (c_parentHash P x p).
