(** Opening a Merkle tree (tree.c) in the language of MiniC.

    Pointers as in CodeMerkle.v; 6: output, of the size that is allocated. Index 5: *outputSizeBytes. The nodes that
    getRevealedMerkleNodes returned are an argument of the program, the loop is written out. *)

From Coq Require Import List NArith Arith Bool.
From Verif Require Import Base Params MiniC CodeLowMC Tree CodeTree CodeMerkle.
Import ListNotations.
Local Open Scope c_scope.

Section Open.
Variable P : paramset.

(** tree.c:497-500: the loop over the revealed nodes from the [k]-th on. *)
Fixpoint c_open (k : nat) (nodes : list nat) : stmt :=
  match nodes with
  | [] => Skip
  | r :: rest => MemCpy (PAdd (P0 6) (IC (k * digestSizeBytes P))) (PV 9 (IC r)) (IC (digestSizeBytes P)) ;; c_open (S k) rest
  end.

(** tree.c:487-505 [openMerkleTree], after its allocation. *)
Definition c_openMerkleTree (nodes : list nat) : stmt := ISet 5 (IC (length nodes * digestSizeBytes P)) ;; c_open 0 nodes.

(** buildMerkleTree and then openMerkleTree of the tree made (picnic3_impl.c: sign_picnic3). *)
Definition c_merkle_opened (n : nat) (nodes : list nat) : stmt := c_buildMerkleTree P n ;; c_openMerkleTree nodes.
End Open.
