(** Opening a Merkle tree as a program on memory with pointers. *)

From Coq Require Import List NArith Arith Bool Lia.
From Verif Require Import Base Params Env Spec MiniC CodeSpec HashSpec CodeZkbSpec CodeOpen CodeTreeSpec CodeMerkleSpec.
From Verif Require Import BaseFacts ParamFacts CodeWitness Witness CodeTreeThm CodeMerkleProofs CodeOpenProofs.
Import ListNotations.

(** C102: buildMerkleTree and openMerkleTree on memory, with SHAKE by the code of sha3/, run to the end and change only the output and the
    new tree. The output is then the values of the nodes to open, in their order, where the values are those of the Merkle tree of the
    leaves; its length is returned and the tree still holds its values. *)
Theorem C102_open_merkle_tree_code : forall U p P n st q leaves salt nodes qb buf,
  locals_ok U -> get_param_set p = Some P -> 2 <= n -> Nat.log2_up n < 30 -> merkle_call P n st q leaves salt -> (forall x, In x nodes -> x < node_count n) ->
  pv st 6 = [qb] -> reads st (tree_parts n (digestSizeBytes P) q) qb buf -> length buf = length nodes * digestSizeBytes P ->
  exists st' t v, run U (c_merkle_opened P n nodes) st = Some (st', t) /\ nx st' = nx st /\
    chg (nx st) (mm st) (mm st') ((qb, length buf) :: tree_parts n (digestSizeBytes P) q) /\ merkle_values P n leaves salt v /\
    (forall x, x < node_count n -> CodeZkbSpec.holds st' (q x) (v x)) /\ CodeZkbSpec.holds st' qb (flat_map v nodes) /\ iv st' 5 = length (flat_map v nodes).
Proof. exact open_code. Qed.
Print Assumptions C102_open_merkle_tree_code.

(** Every parameter set and every five leaves, of which the nodes 2 and 8 are opened. *)
Example C102_example : forall p P leaves salt buf, get_param_set p = Some P -> length leaves = 5 -> Forall bytes_ok leaves -> (forall x, In x leaves -> digestSizeBytes P <= length x) ->
  bytes_ok salt -> length salt = saltSizeBytes P -> bytes_ok buf -> length buf = 2 * digestSizeBytes P ->
  let st := open_state P 5 leaves salt buf in let q := tree_place 5 (digestSizeBytes P) in let nodes := [2; 8] in
  locals_ok zero_locals /\ merkle_call P 5 st q leaves salt /\ (forall x, In x nodes -> x < node_count 5) /\ pv st 6 = [(5, 0)] /\
  reads st (tree_parts 5 (digestSizeBytes P) q) (5, 0) buf /\ length buf = length nodes * digestSizeBytes P.
Proof.
  intros p P leaves salt buf HP HL BL LL B4 L4 B6 L6 st q nodes. split; [exact zero_locals_ok|].
  destruct (open_called P 5 leaves salt buf) as (C1 & C2 & C3); auto; [apply (digest_sizes p P HP)|].
  split; [exact C1|]. split; [intros x [<-|[<-|[]]]; change (node_count 5) with 12; lia|]. split; [exact C2|]. split; [exact C3|exact L6].
Qed.
