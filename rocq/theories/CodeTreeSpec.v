(** The situation in which a seed tree is made, on memory. *)

From Coq Require Import List NArith Arith Bool.
From Verif Require Import Base Params MiniC CodeSpec CodeKeccakSpec CodeZkbSpec.
Import ListNotations.

(** The number of nodes of a tree with [n] leaves, in which only the last level may be incomplete. *)
Definition node_count (n : nat) : nat := 2 ^ Nat.log2_up n - 1 + n.
(** What lies where: the nodes of [size] bytes, then haveNode and exists, a byte for each node. *)
Definition tree_part (n size k : nat) : nat := if k <? node_count n then size else node_count n.
Definition tree_parts (n size : nat) (q : nat -> ptr) : list (ptr * nat) :=
  map (fun k => (q k, tree_part n size k)) (seq 0 (node_count n + 2)).
(** A new tree at [q], with all bytes zero. *)
Record new_tree (n size : nat) (st : state) (q : nat -> ptr) : Prop := {
  nt_apart : apart (tree_parts n size q);
  nt_zero : forall k, k < node_count n + 2 -> holds st (q k) (zeros (tree_part n size k));
  nt_nodes : forall k, k < node_count n -> nth_error (pv st 9) k = Some (q k);
  nt_have : pv st 10 = [q (node_count n)];
  nt_exists : pv st 11 = [q (node_count n + 1)]
}.
(** The tree and what is read. *)
Record seeds_call (P : paramset) (n : nat) (st : state) (q : nat -> ptr) (root salt : bytes) : Prop := {
  sd_tree : new_tree n (seedSizeBytes P) st q;
  sd_root : exists p, pv st 3 = [p] /\ reads st (tree_parts n (seedSizeBytes P) q) p root /\ seedSizeBytes P <= length root;
  sd_salt : exists p, pv st 4 = [p] /\ reads st (tree_parts n (seedSizeBytes P) q) p salt /\ length salt = saltSizeBytes P;
  sd_rc : exists p, pv st 0 = [p] /\ reads st (tree_parts n (seedSizeBytes P) q) p round_constant_bytes /\ snd p mod 8 = 0
}.
(** Node [x] is above one of the [n] leaves, or one of them (the nodes are numbered level by level). *)
Definition above_leaf (n x : nat) : Prop := exists l k, l < n /\ (2 ^ Nat.log2_up n + l) / 2 ^ k = x + 1.
(** A byte for each node, one for those and zero for the others. *)
Definition marks_nodes (n : nat) (b : bytes) : Prop :=
  length b = node_count n /\ forall x, x < node_count n -> (above_leaf n x -> nth x b 0%N = 1%N) /\ (~ above_leaf n x -> nth x b 0%N = 0%N).
