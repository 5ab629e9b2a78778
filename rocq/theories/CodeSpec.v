(** Statements about programs of MiniC: what is stored where, what may change, what is observed; and the
    situation in which LowMCEnc is called. *)

From Coq Require Import List NArith Arith Bool.
From Verif Require Import Base Params Env Spec MiniC.
Import ListNotations.

(** [l] is stored at [p], in one of the first [n] blocks. *)
Definition pts (n : nat) (m : memory) (p : ptr) (l : bytes) : Prop :=
  fst p < n /\ forall i x, nth_error l i = Some x -> nth_error (m (fst p)) (snd p + i) = Some x.

(** [k] bytes at [p] and [l] bytes at [q] do not overlap. *)
Definition disj (p : ptr) (k : nat) (q : ptr) (l : nat) : Prop :=
  fst p <> fst q \/ snd p + k <= snd q \/ snd q + l <= snd p.
(** The same [k] bytes, or no common byte. *)
Definition eqdisj (p q : ptr) (k : nat) : Prop := p = q \/ disj p k q k.

(** Only the regions [rs] of the first [n] blocks may differ. *)
Definition chg (n : nat) (m m' : memory) (rs : list (ptr * nat)) : Prop :=
  forall b, b < n -> length (m' b) = length (m b) /\
  forall i, (forall p k, In (p, k) rs -> b = fst p -> i < snd p \/ snd p + k <= i) -> nth_error (m' b) i = nth_error (m b) i.

Definition aligned (p : ptr) : Prop := snd p mod 4 = 0.

(** Uninitialised local arrays consist of any bytes. *)
Definition locals_ok (U : nat -> nat -> bytes) : Prop := forall k j, length (U k j) = j /\ bytes_ok (U k j).

(** A table of constants: entry [i] of pointer array [a] points to [f i], aligned, and outside [k] bytes at [q0]. *)
Definition table (st : state) (a cnt : nat) (f : nat -> bytes) (q0 : ptr) (k : nat) : Prop :=
  forall i, i < cnt -> exists q, nth_error (pv st a) i = Some q /\ pts (nx st) (mm st) q (f i) /\ aligned q /\ disj q0 k q (length (f i)).

(** The caller of LowMCEnc: variables 0, 1, 2 point to the plaintext, to room for the ciphertext and to the
    key, of [stateSizeWords] words; variables 3, 4, 5 to the constants. Plaintext and output are the same or apart,
    the output is apart from everything else. *)
Record LowMC_call (E : env) (P : paramset) (st : state) (qo : ptr) (pt key : bytes) : Prop := {
  call_pt : bytes_ok pt /\ length pt = 4 * stateSizeWords P;
  call_key : bytes_ok key /\ length key = 4 * stateSizeWords P;
  call_places : exists qp qk out, pv st 0 = [qp] /\ pv st 1 = [qo] /\ pv st 2 = [qk] /\
    pts (nx st) (mm st) qp pt /\ pts (nx st) (mm st) qo out /\ length out = 4 * stateSizeWords P /\ pts (nx st) (mm st) qk key /\
    aligned qo /\ aligned qk /\ eqdisj qo qp (4 * stateSizeWords P) /\ disj qo (4 * stateSizeWords P) qk (length key);
  call_K : table st 3 (numRounds P + 1) (KMatrix E P) qo (4 * stateSizeWords P);
  call_L : table st 4 (numRounds P) (LMatrix E P) qo (4 * stateSizeWords P);
  call_C : table st 5 (numRounds P) (RConstant E P) qo (4 * stateSizeWords P)
}.

(** Equal up to data: variables of index and pointer kind, sizes of blocks. *)
Definition same_public (a b : state) : Prop :=
  iv a = iv b /\ pv a = pv b /\ nx a = nx b /\ ct a = ct b /\ forall k, length (mm a k) = length (mm b k).

(** What is observed of a run; [None]: undefined behaviour. *)
Definition observed (r : outcome) : option (list event) := match r with Some (_, t) => Some t | None => None end.
