(** Memory layout: where the arrays carved from one allocation lie. *)

From Coq Require Import List NArith Arith Bool.
From Verif Require Import Base Memory MemSpec.
Import ListNotations.

(** Reading the pointer stored at [p] gives [q]. *)
Definition reads (m : mem) (p q : ptr) : Prop := load p m = Ok (q, m).

(** [n] bytes from [p]. *)
Definition region : Type := ptr * nat.

(** The bytes lie in a live block from the allocator. *)
Definition inside (m : mem) (r : region) : Prop :=
  match fst r with
  | Null => False
  | Loc b o => exists n, In (Tok b n true) (live m) /\ o + snd r <= n
  end.

(** The block is not one of [m]. *)
Definition fresh (m : mem) (r : region) : Prop :=
  match fst r with Null => False | Loc b _ => forall x, In x (live m) -> bid x <> b end.

(** No byte in common. *)
Definition apart (r s : region) : Prop :=
  match fst r, fst s with
  | Loc b o, Loc c q => b <> c \/ o + snd r <= q \/ q + snd s <= o
  | _, _ => False
  end.

(** The regions [rs] of the memory [m'], obtained by a run from [m], lie in new blocks and no two overlap;
    what was in [m] is still there. *)
Definition laid_out (m m' : mem) (rs : list region) : Prop :=
  (forall x, In x (live m) -> In x (live m')) /\
  Forall (inside m') rs /\ Forall (fresh m) rs /\ ForallOrdPairs apart rs.

(** [n] regions of [k] bytes. *)
Definition each (e : nat -> ptr) (n k : nat) : list region := map (fun i => (e i, k)) (seq 0 n).

(** [n] rows of [w] regions of [k] bytes. *)
Definition each2 (e : nat -> nat -> ptr) (n w k : nat) : list region :=
  concat (map (fun i => each (e i) w k) (seq 0 n)).
