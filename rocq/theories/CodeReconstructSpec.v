(** The situation in which a seed tree is rebuilt, on memory. *)

From Coq Require Import List NArith Arith Bool.
From Verif Require Import Base Params MiniC CodeSpec CodeKeccakSpec CodeZkbSpec CodeTreeSpec.
Import ListNotations.

(** A new tree and what is read. *)
Record again_call (P : paramset) (n : nat) (st : state) (q : nat -> ptr) (input salt : bytes) : Prop := {
  ag_tree : new_tree n (seedSizeBytes P) st q;
  ag_input : exists p, pv st 3 = [p] /\ reads st (tree_parts n (seedSizeBytes P) q) p input;
  ag_salt : exists p, pv st 4 = [p] /\ reads st (tree_parts n (seedSizeBytes P) q) p salt /\ length salt = saltSizeBytes P;
  ag_rc : exists p, pv st 0 = [p] /\ reads st (tree_parts n (seedSizeBytes P) q) p round_constant_bytes /\ snd p mod 8 = 0
}.
(** A byte for each node; those of the leaves are one, but zero for the leaves in [hide]. *)
Definition marks_open (n : nat) (hide : list nat) (b : bytes) : Prop :=
  length b = node_count n /\ forall l, l < n -> nth (node_count n - n + l) b 0%N = if existsb (Nat.eqb l) hide then 0%N else 1%N.
