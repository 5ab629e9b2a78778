(** Checking the opening of a Merkle tree (tree.c, picnic3_impl.c) in the language of MiniC.

    Pointers as in CodeVerifyTree.v; 6: input. Index 5: the result, with 1 for -1. The nodes that getRevealedMerkleNodes returned
    and inputSize are arguments of the program, the loop is written out. *)

From Coq Require Import List NArith Arith Bool.
From Verif Require Import Base Params MiniC CodeLowMC Tree CodeTree CodeMerkle CodeVerifyTree.
Import ListNotations.
Local Open Scope c_scope.

Section Opening.
Variable P : paramset.

(** tree.c:525-539: the loop over the revealed nodes from the [k]-th on, and the result; [k] nodes are read. [intLen] is not kept: it is
    what [len] has more than the bytes of k nodes. *)
Fixpoint c_add_nodes (len k : nat) (nodes : list nat) : stmt :=
  match nodes with
  | [] => If (CEq (IC len) (IC (k * digestSizeBytes P))) (ISet 5 (IC 0)) (ISet 5 (IC 1))
  | r :: rest =>
      If (CLt (IC len) (IC (k * digestSizeBytes P + digestSizeBytes P))) (ISet 5 (IC 1))
        (MemCpy (PV 9 (IC r)) (PAdd (P0 6) (IC (k * digestSizeBytes P))) (IC (digestSizeBytes P)) ;;
         St 1 (PAdd (P0 10) (IC r)) (DC 1) ;;
         c_add_nodes len (S k) rest)
  end.

(** tree.c:509-546 [addMerkleNodes], for an [inputSize] up to INT_MAX; the assertions about the missing leaves are left out. *)
Definition c_addMerkleNodes (len : nat) (nodes : list nat) : stmt := c_add_nodes len 0 nodes.

(** picnic3_impl.c:577, 688-699: createTree, addMerkleNodes and, if that succeeds, verifyMerkleTree. *)
Definition c_check_opening (n len : nat) (nodes : list nat) (given : nat -> bool) : stmt :=
  c_createTree n ;; c_addMerkleNodes len nodes ;; If (CEq (IV 5) (IC 0)) (c_verifyMerkleTree P n given) Skip.
End Opening.
