(** Merkle trees (tree.c) in the language of MiniC.

    Pointers: 0 the round constants of Keccak, 3 leafData (one for each leaf; none is NULL), 4 salt, 9 tree->nodes, 10 tree->haveNode,
    11 tree->exists. The numbers in the struct are arguments of the programs; loops over nodes are written out. *)

From Coq Require Import List NArith Arith Bool.
From Verif Require Import Base Params Env MiniC CodeLowMC CodeHashUses Tree CodeTree.
Import ListNotations.
Local Open Scope c_scope.

Section Merkle.
Variable P : paramset.

(** tree.c:408-413: the iteration for leaf [i] of the loop that copies, and [k] iterations from [i] on, for a tree of [nn] nodes and [n] leaves. *)
Definition c_leaf (nn n i : nat) : stmt :=
  MemCpy (PV 9 (IC (nn - n + i))) (PV 3 (IC i)) (IC (digestSizeBytes P)) ;;
  St 1 (PAdd (P0 10) (IC (nn - n + i))) (DC 1).
Fixpoint c_leaves (nn n i k : nat) : stmt := match k with 0 => Skip | S k' => c_leaf nn n i ;; c_leaves nn n (S i) k' end.

(** tree.c:384-397: the hash for [parent]. [hasRightChild] (93-96) is asked before hashing starts. *)
Definition c_hash_children (hasRight : bool) (parent : nat) : stmt :=
  Call (c_parentHash P hasRight parent) [] [] [PA 0; PL []; PL []; PA 9; PA 4] [] [] ;;
  St 1 (PAdd (P0 10) (IC parent)) (DC 1).
Definition c_set_parent (nn parent : nat) : stmt :=
  If (CLt (IC (2 * parent + 2)) (IC nn))
    (c_exists nn parent ;; If (CEq (IV 1) (IC 1)) (c_hash_children true parent) (c_hash_children false parent))
    (c_hash_children false parent).

(** tree.c:362-398 [computeParentHash], and the loop of tree.c:415-417 from [i] down to 1. *)
Definition c_parent (nn child : nat) : stmt :=
  let p := parent child in
  c_exists nn child ;;
  If (CEq (IV 1) (IC 1))
    (Ld 1 0 (PAdd (P0 10) (IC p)) ;;
     IfD (DV 0) Skip
       (Ld 1 0 (PAdd (P0 10) (IC (2 * p + 1))) ;;
        IfD (DV 0)
          (c_exists nn (2 * p + 2) ;;
           If (CEq (IV 1) (IC 1))
             (Ld 1 0 (PAdd (P0 10) (IC (2 * p + 2))) ;; IfD (DV 0) (c_set_parent nn p) Skip)
             (c_set_parent nn p))
          Skip))
    Skip.
Fixpoint c_parents (nn i : nat) : stmt := match i with 0 => Skip | S i' => c_parent nn i ;; c_parents nn i' end.

(** tree.c:402-418 [buildMerkleTree] for [n] leaves on a new tree, with createTree (45-74) after its allocations. *)
Definition c_buildMerkleTree (n : nat) : stmt :=
  c_createTree n ;;
  c_leaves (num_nodes n) n 0 n ;;
  c_parents (num_nodes n) (num_nodes n).
End Merkle.
