(** Revealing seeds of a seed tree (tree.c) in the language of MiniC.

    Pointers as in CodeTree.v; 6: output. Index 5: the result. The nodes that getRevealedNodes returned and outputSize are arguments
    of the program, the loop is written out. *)

From Coq Require Import List NArith Arith Bool.
From Verif Require Import Base Params MiniC CodeLowMC Tree CodeTree.
Import ListNotations.
Local Open Scope c_scope.

Section Reveal.
Variable P : paramset.

(** tree.c:316-329: the loop over the revealed nodes from the [k]-th on, and the result; [k] seeds are written. With too small an output,
    the assertion is taken to be switched off. *)
Fixpoint c_reveal (len k : nat) (nodes : list nat) : stmt :=
  match nodes with
  | [] => ISet 5 (IC (k * seedSizeBytes P))
  | r :: rest =>
      If (CLt (IC len) (IC (k * seedSizeBytes P + seedSizeBytes P))) (ISet 5 (IC 0))
        (MemCpy (PAdd (P0 6) (IC (k * seedSizeBytes P))) (PV 9 (IC r)) (IC (seedSizeBytes P)) ;; c_reveal len (S k) rest)
  end.

(** tree.c:304-330 [revealSeeds], for an [outputSize] up to INT_MAX. *)
Definition c_revealSeeds (len : nat) (nodes : list nat) : stmt := c_reveal len 0 nodes.

(** generateSeeds and then revealSeeds of the tree made (picnic3_impl.c: sign_picnic3, for the tree of initial seeds and for the trees of
    the opened rounds). *)
Definition c_seeds_revealed (n rep len : nat) (nodes : list nat) : stmt := c_generateSeeds P n rep ;; c_revealSeeds len nodes.
End Reveal.
