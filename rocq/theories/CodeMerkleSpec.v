(** The situation in which a Merkle tree is made, on memory, and what the tree is. *)

From Coq Require Import List NArith Arith Bool.
From Verif Require Import Base Params Env MiniC CodeSpec HashSpec CodeKeccakSpec CodeZkbSpec CodeTreeSpec.
Import ListNotations.

(** The new tree and what is read. *)
Record merkle_call (P : paramset) (n : nat) (st : state) (q : nat -> ptr) (leaves : list bytes) (salt : bytes) : Prop := {
  mk_tree : new_tree n (digestSizeBytes P) st q;
  mk_count : length leaves = n;
  mk_leaves : forall i d, nth_error leaves i = Some d -> digestSizeBytes P <= length d /\
    exists p, nth_error (pv st 3) i = Some p /\ reads st (tree_parts n (digestSizeBytes P) q) p d;
  mk_salt : exists p, pv st 4 = [p] /\ reads st (tree_parts n (digestSizeBytes P) q) p salt /\ length salt = saltSizeBytes P;
  mk_rc : exists p, pv st 0 = [p] /\ reads st (tree_parts n (digestSizeBytes P) q) p round_constant_bytes /\ snd p mod 8 = 0
}.
(** The low sixteen bits of a number, low byte first. *)
Definition two_bytes (x : nat) : bytes := [(N.of_nat x mod 256)%N; (N.of_nat x / 256 mod 256)%N].
(** The values [v] of the nodes for these leaves: the nodes above a leaf hash what is below them with the salt and their number, all
    others are zero. Where the right one of two children is above no leaf it still counts if it has a number. *)
Record merkle_values (P : paramset) (n : nat) (leaves : list bytes) (salt : bytes) (v : nat -> bytes) : Prop := {
  mv_leaf : forall l d, nth_error leaves l = Some d -> v (node_count n - n + l) = firstn (digestSizeBytes P) d;
  mv_zero : forall x, x < node_count n -> ~ above_leaf n x -> v x = zeros (digestSizeBytes P);
  mv_hash : forall x, x < node_count n - n -> above_leaf n x ->
    v x = shake (use_shake128 P) (3%N :: v (2 * x + 1) ++ (if 2 * x + 2 <? node_count n then v (2 * x + 2) else []) ++ salt ++ two_bytes x) (digestSizeBytes P)
}.
