(** The situation in which the opening of a Merkle tree is checked, on memory. *)

From Coq Require Import List NArith Arith Bool.
From Verif Require Import Base Params MiniC CodeSpec CodeKeccakSpec CodeZkbSpec CodeTreeSpec.
Import ListNotations.

(** The value that an opening [input] of [nodes], of [size] bytes each, has for node [x]; zeros if it is none of them. *)
Fixpoint opened (size : nat) (nodes : list nat) (input : bytes) (x : nat) : bytes :=
  match nodes with
  | [] => zeros size
  | r :: rest => if r =? x then firstn size input else opened size rest (skipn size input) x
  end.

(** A new tree and what is read. *)
Record opening_call (P : paramset) (n : nat) (st : state) (q : nat -> ptr) (input : bytes) (leaves : list (option bytes)) (salt : bytes) : Prop := {
  oc_tree : new_tree n (digestSizeBytes P) st q;
  oc_input : exists p, pv st 6 = [p] /\ reads st (tree_parts n (digestSizeBytes P) q) p input;
  oc_count : length leaves = n;
  oc_leaves : forall i d, nth_error leaves i = Some (Some d) -> digestSizeBytes P <= length d /\
    exists p, nth_error (pv st 3) i = Some p /\ reads st (tree_parts n (digestSizeBytes P) q) p d;
  oc_salt : exists p, pv st 4 = [p] /\ reads st (tree_parts n (digestSizeBytes P) q) p salt /\ length salt = saltSizeBytes P;
  oc_rc : exists p, pv st 0 = [p] /\ reads st (tree_parts n (digestSizeBytes P) q) p round_constant_bytes /\ snd p mod 8 = 0
}.
