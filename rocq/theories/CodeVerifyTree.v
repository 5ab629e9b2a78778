(** Checking a Merkle tree (tree.c) in the language of MiniC.

    Pointers as in CodeMerkle: 0 the round constants of Keccak, 3 leafData, 4 salt, 9 tree->nodes, 10 tree->haveNode, 11 tree->exists.
    Index 5: the result, 1 for -1. *)

From Coq Require Import List NArith Arith Bool.
From Verif Require Import Base Params Env MiniC CodeLowMC CodeHashUses Tree CodeTree CodeMerkle.
Import ListNotations.
Local Open Scope c_scope.

Section Verify.
Variable P : paramset.

(** tree.c:556-567: [k] iterations from leaf [i] on, for a tree of [nn] nodes and [n] leaves, and then [rest]. [given]: which entries
    of leafData are not NULL. The flags are 0 or 1, so that == 1 is != 0. *)
Fixpoint c_check_leaves (nn n : nat) (given : nat -> bool) (i k : nat) (rest : stmt) : stmt :=
  match k with
  | 0 => rest
  | S k' =>
      if given i
      then Ld 1 0 (PAdd (P0 10) (IC (nn - n + i))) ;;
           IfD (DV 0) (ISet 5 (IC 1)) (c_leaf P nn n i ;; c_check_leaves nn n given (S i) k' rest)
      else c_check_leaves nn n given (S i) k' rest
  end.

(** tree.c:549-581 [verifyMerkleTree]. *)
Definition c_verifyMerkleTree (n : nat) (given : nat -> bool) : stmt :=
  let nn := num_nodes n in
  c_check_leaves nn n given 0 n
    (c_parents P nn nn ;;
     Ld 1 0 (PAdd (P0 10) (IC 0)) ;;
     IfD (DV 0) (ISet 5 (IC 0)) (ISet 5 (IC 1))).
End Verify.
