(** Rebuilding a seed tree from the seeds revealed (tree.c) in the language of MiniC.

    Pointers as in CodeTree.v; 3: input. Index 5: the result, with 1 for -1. The nodes that getRevealedNodes returned and inputLen
    are arguments of the program, the loop is written out. *)

From Coq Require Import List NArith Arith Bool.
From Verif Require Import Base Params MiniC CodeLowMC Tree CodeTree.
Import ListNotations.
Local Open Scope c_scope.

Section Reconstruct.
Variable P : paramset.

(** tree.c:344-359: the loop over the revealed nodes from the [k]-th on, and what follows; [k] seeds of the input are used up. [inLen]
    is not kept: it is negative when the input has fewer bytes than those of k+1 seeds. *)
Fixpoint c_put_revealed (nn rep len k : nat) (nodes : list nat) : stmt :=
  match nodes with
  | [] => c_expandSeeds P nn rep ;; ISet 5 (IC 0)
  | r :: rest =>
      If (CLt (IC len) (IC (k * seedSizeBytes P + seedSizeBytes P))) (ISet 5 (IC 1))
        (MemCpy (PV 9 (IC r)) (PAdd (P0 3) (IC (k * seedSizeBytes P))) (IC (seedSizeBytes P)) ;;
         St 1 (PAdd (P0 10) (IC r)) (DC 1) ;;
         c_put_revealed nn rep len (S k) rest)
  end.

(** tree.c:332-360 [reconstructSeeds] on a tree of [n] leaves, for an [inputLen] up to INT_MAX. *)
Definition c_reconstructSeeds (n rep len : nat) (nodes : list nat) : stmt := c_put_revealed (num_nodes n) rep len 0 nodes.

(** createTree and then reconstructSeeds, as every caller does (picnic3_impl.c:581-583, 598-602). *)
Definition c_seeds_again (n rep len : nat) (nodes : list nat) : stmt := c_createTree n ;; c_reconstructSeeds n rep len nodes.
End Reconstruct.
