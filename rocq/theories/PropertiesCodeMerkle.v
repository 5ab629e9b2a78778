(** Merkle trees as a program on memory with pointers. *)

From Coq Require Import List NArith Arith Bool Lia.
From Verif Require Import Base Params Env Spec MiniC CodeSpec HashSpec CodeZkbSpec CodeTreeSpec CodeMerkle CodeMerkleSpec.
From Verif Require Import BaseFacts ParamFacts CodeWitness Witness CodeTreeThm CodeMerkleProofs PropertiesCodeTree.
Import ListNotations.

(** C97: making a Merkle tree on memory, with SHAKE by the code of sha3/, runs to the end and changes only the nodes and the two arrays
    of flags of the new tree. The leaves then hold what they are given, every node above a leaf the hash of its children, the salt and
    its number, and every other node zeros; both arrays of flags say which nodes are above a leaf. *)
Theorem C97_merkle_tree_code : forall U p P n st q leaves salt,
  locals_ok U -> get_param_set p = Some P -> 2 <= n -> Nat.log2_up n < 30 -> merkle_call P n st q leaves salt ->
  exists st' t v, run U (c_buildMerkleTree P n) st = Some (st', t) /\ nx st' = nx st /\ chg (nx st) (mm st) (mm st') (tree_parts n (digestSizeBytes P) q) /\
    merkle_values P n leaves salt v /\ (forall x, x < node_count n -> holds st' (q x) (v x)) /\
    (exists b, holds st' (q (node_count n)) b /\ marks_nodes n b) /\ (exists b, holds st' (q (node_count n + 1)) b /\ marks_nodes n b).
Proof. exact merkle_code. Qed.
Print Assumptions C97_merkle_tree_code.

(** Every parameter set and every list of leaves, with the nodes in one block as createTree allocates them. With 5 leaves node 2 has
    two children, the second of which is above no leaf, and node 5 has one. *)
Example C97_example : forall p P leaves salt, get_param_set p = Some P -> Forall bytes_ok leaves -> (forall x, In x leaves -> digestSizeBytes P <= length x) ->
  bytes_ok salt -> length salt = saltSizeBytes P ->
  locals_ok zero_locals /\ merkle_call P (length leaves) (merkle_state P (length leaves) leaves salt) (tree_place (length leaves) (digestSizeBytes P)) leaves salt /\
  above_leaf 5 2 /\ ~ above_leaf 5 6 /\ 2 * 2 + 2 < node_count 5 /\ above_leaf 5 5 /\ ~ 2 * 5 + 2 < node_count 5.
Proof.
  intros p P leaves salt HP BL LL B4 L4. split; [exact zero_locals_ok|]. split; [apply merkle_called; auto; apply (digest_sizes p P HP)|].
  split; [exists 4, 2; split; [lia|reflexivity]|].
  assert (X : exists root, bytes_ok root /\ seedSizeBytes P <= length root) by (exists (zeros (seedSizeBytes P)); rewrite length_zeros; split; [apply bytes_ok_zeros|auto]).
  destruct X as (root & B3 & L3). destruct (C96_example p P 5 root salt HP B3 B4 L3 L4) as (_ & _ & _ & N5 & A5 & A6). rewrite N5. repeat split; auto; lia.
Qed.
