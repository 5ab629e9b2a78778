(** Vocabulary for the properties of trees: positions, ancestors, hashed strings. *)

From Coq Require Import List NArith Arith Bool.
From Verif Require Import Base Params Env Spec Tree.
Import ListNotations.

(** [below x y]: node [y] is node [x] or one of its descendants; the children of node [x] of a
    heap-ordered tree are nodes 2x+1 and 2x+2. *)
Inductive below (x : nat) : nat -> Prop :=
| below_self : below x x
| below_left : forall y, below x y -> below x (2 * y + 1)
| below_right : forall y, below x y -> below x (2 * y + 2).

(** The number of a leaf's node: the leaves are the last nodes. *)
Definition leaf_node (t : tree) (l : nat) : nat := t_numNodes t - t_numLeaves t + l.

(** Is the leaf marked as present? *)
Definition have_leaf (t : tree) (l : nat) : bool := nth (leaf_node t l) (t_haveNode t) false.

Definition node_value (t : tree) (i : nat) : bytes := nth i (t_nodes t) [].

(** The root of a tree. *)
Definition root_value (t : tree) : bytes := node_value t 0.

(** The string hashed to obtain node [p] of a Merkle tree: left child, right child (when its number
    is that of a node), salt, node number. *)
Definition merkle_string (P : paramset) (t : tree) (salt : bytes) (p : nat) : bytes :=
  node_value t (2 * p + 1) ++
  (if 2 * p + 2 <? t_numNodes t then node_value t (2 * p + 2) else []) ++
  firstn (saltSizeBytes P) salt ++ intLE p.

(** The leaf data given to the verifier: exactly the leaves that are not listed as missing. *)
Definition present_leaves (n : nat) (miss : list nat) (L : list bytes) : list (option bytes) :=
  map (fun i => if existsb (Nat.eqb i) miss then None else Some (nth i L [])) (seq 0 n).

(** The sizes for which the code's int arithmetic does not overflow: at most 2^29 leaves, and the
    tree's data within INT_MAX bytes. *)
Definition tree_size_ok (n sz : nat) : Prop :=
  2 <= n /\ Nat.log2_up n < 30 /\ (N.of_nat (n * sz) <= INT_MAX)%N.

(** The value of node [x] of the seed tree, by the path from the root: the two halves of the hash of
    a node's seed are the seeds of its children. *)
Fixpoint seed_of (E : env) (P : paramset) (root salt : bytes) (rep : nat) (path : list bool) : nat * bytes :=
  match path with
  | [] => (0, firstn (seedSizeBytes P) root)
  | b :: up =>
      let '(p, s) := seed_of E P root salt rep up in
      let h := hash E P (Some 1%N) [s; firstn (saltSizeBytes P) salt; intLE rep; intLE p]
                    (2 * seedSizeBytes P) in
      if b then (2 * p + 2, skipn (seedSizeBytes P) h)
      else (2 * p + 1, firstn (seedSizeBytes P) h)
  end.
