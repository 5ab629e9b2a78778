(** The situation in which a Merkle tree is checked, on memory, and what the tree is afterwards. *)

From Coq Require Import List NArith Arith Bool.
From Verif Require Import Base Params Env MiniC CodeSpec HashSpec CodeKeccakSpec CodeZkbSpec CodeTreeSpec CodeMerkleSpec.
Import ListNotations.

(** A byte for each node, one if [known]. *)
Definition flags (n : nat) (known : nat -> bool) : bytes := map (fun x => if known x then 1%N else 0%N) (seq 0 (node_count n)).
(** The data of leaf [l], if there is any, and the node of a leaf for which there is. *)
Definition supplied (leaves : list (option bytes)) (l : nat) : bool := match nth l leaves None with Some _ => true | None => false end.
Definition given_leaf (n : nat) (leaves : list (option bytes)) (x : nat) : Prop :=
  exists l d, x = node_count n - n + l /\ nth_error leaves l = Some (Some d).

(** A tree at [q] with the values [v], of which some are [known], and what is read. *)
Record check_call (P : paramset) (n : nat) (st : state) (q : nat -> ptr) (v : nat -> bytes) (known : nat -> bool) (leaves : list (option bytes)) (salt : bytes) : Prop := {
  ck_apart : apart (tree_parts n (digestSizeBytes P) q);
  ck_values : forall x, x < node_count n -> holds st (q x) (v x) /\ length (v x) = digestSizeBytes P;
  ck_known : holds st (q (node_count n)) (flags n known);
  ck_above : forall x, x < node_count n -> known x = true -> above_leaf n x;
  ck_marks : exists b, holds st (q (node_count n + 1)) b /\ marks_nodes n b;
  ck_nodes : forall k, k < node_count n -> nth_error (pv st 9) k = Some (q k);
  ck_have : pv st 10 = [q (node_count n)];
  ck_exists : pv st 11 = [q (node_count n + 1)];
  ck_count : length leaves = n;
  ck_leaves : forall i d, nth_error leaves i = Some (Some d) -> digestSizeBytes P <= length d /\
    exists p, nth_error (pv st 3) i = Some p /\ reads st (tree_parts n (digestSizeBytes P) q) p d;
  ck_salt : exists p, pv st 4 = [p] /\ reads st (tree_parts n (digestSizeBytes P) q) p salt /\ length salt = saltSizeBytes P;
  ck_rc : exists p, pv st 0 = [p] /\ reads st (tree_parts n (digestSizeBytes P) q) p round_constant_bytes /\ snd p mod 8 = 0
}.

(** [v'] and [known'] complete [v] and [known] from these leaves: a node is known if it was, if it is given, or if its children above
    a leaf are known; in the last case its value is their hash. *)
Record completes (P : paramset) (n : nat) (leaves : list (option bytes)) (salt : bytes) (v : nat -> bytes) (known : nat -> bool) (v' : nat -> bytes) (known' : nat -> bool) : Prop := {
  cp_known : forall x, x < node_count n -> (known' x = true <->
    known x = true \/ given_leaf n leaves x \/ (2 * x + 1 < node_count n /\ known' (2 * x + 1) = true /\ (above_leaf n (2 * x + 2) -> known' (2 * x + 2) = true)));
  cp_leaf : forall l d, nth_error leaves l = Some (Some d) -> v' (node_count n - n + l) = firstn (digestSizeBytes P) d;
  cp_kept : forall x, x < node_count n -> known x = true \/ known' x = false -> v' x = v x;
  cp_hash : forall x, x < node_count n -> known' x = true -> known x = false -> ~ given_leaf n leaves x ->
    v' x = shake (use_shake128 P) (3%N :: v' (2 * x + 1) ++ (if 2 * x + 2 <? node_count n then v' (2 * x + 2) else []) ++ salt ++ two_bytes x) (digestSizeBytes P)
}.
