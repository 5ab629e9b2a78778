(** Checking the opening of a Merkle tree as a program on memory with pointers. *)

From Coq Require Import List NArith Arith Bool Lia.
From Verif Require Import Base Params Env Spec MiniC CodeSpec HashSpec CodeZkbSpec CodeOpening CodeTreeSpec CodeVerifyTreeSpec CodeOpeningSpec.
From Verif Require Import BaseFacts ParamFacts CodeWitness Witness CodeTreeThm CodeMerkleProofs CodeOpeningProofs.
Import ListNotations.

(** C101: createTree, addMerkleNodes and verifyMerkleTree on memory, with SHAKE by the code of sha3/, run to the end and change only the new
    tree. The check fails if the opening has not exactly the length of its nodes, or if a leaf is both in the opening and given. Otherwise
    the tree is completed by hashing from the values in the opening and the given leaves, and the check succeeds exactly if the root
    is known in the end. *)
Theorem C101_check_opening_code : forall U p P n st q nodes input leaves salt,
  locals_ok U -> get_param_set p = Some P -> 2 <= n -> Nat.log2_up n < 30 -> NoDup nodes -> (forall x, In x nodes -> above_leaf n x) ->
  opening_call P n st q input leaves salt ->
  let s := digestSizeBytes P in let known := fun x => existsb (Nat.eqb x) nodes in
  exists st' t, run U (c_check_opening P n (length input) nodes (supplied leaves)) st = Some (st', t) /\ nx st' = nx st /\ chg (nx st) (mm st) (mm st') (tree_parts n s q) /\
    (length input <> length nodes * s \/ (exists x, given_leaf n leaves x /\ In x nodes) -> iv st' 5 = 1) /\
    (length input = length nodes * s -> ~ (exists x, given_leaf n leaves x /\ In x nodes) -> exists v' known', completes P n leaves salt (opened s nodes input) known v' known' /\
       (forall x, x < node_count n -> CodeZkbSpec.holds st' (q x) (v' x)) /\ CodeZkbSpec.holds st' (q (node_count n)) (flags n known') /\ iv st' 5 = if known' 0 then 0 else 1).
Proof. exact opening_code. Qed.
Print Assumptions C101_check_opening_code.

(** Three leaves, of which the first two are given; the opening has node 2, above the third leaf: the root is computed. *)
Example C101_example : forall p P d d' salt input, get_param_set p = Some P -> bytes_ok d -> bytes_ok d' -> digestSizeBytes P <= length d -> digestSizeBytes P <= length d' ->
  bytes_ok salt -> length salt = saltSizeBytes P -> bytes_ok input -> length input = digestSizeBytes P ->
  let leaves := [Some d; Some d'; None] in let nodes := [2] in let s := digestSizeBytes P in
  locals_ok zero_locals /\ Nat.log2_up 3 < 30 /\ NoDup nodes /\ (forall x, In x nodes -> above_leaf 3 x) /\
  opening_call P 3 (opening_state P 3 input leaves salt) (tree_place 3 s) input leaves salt /\
  length input = length nodes * s /\ ~ (exists x, given_leaf 3 leaves x /\ In x nodes) /\
  (forall v' known', completes P 3 leaves salt (opened s nodes input) (fun x => existsb (Nat.eqb x) nodes) v' known' -> known' 0 = true /\ v' 2 = input).
Proof.
  intros p P d d' salt input HP B B' L L' B4 L4 B6 L6 leaves nodes s. split; [exact zero_locals_ok|]. split; [cbv; lia|]. split; [repeat constructor; auto|].
  assert (LL : forall x, In (Some x) leaves -> bytes_ok x /\ digestSizeBytes P <= length x) by (intros x [K|[K|[K|[]]]]; inversion K; subst; auto).
  split; [intros x [<-|[]]; exists 2, 1; split; [lia|reflexivity]|]. split; [apply opening_called; auto; apply (digest_sizes p P HP)|]. split; [cbn; unfold s; lia|].
  split; [intros (x & (l & y & -> & Hy) & [K|[]]); change (node_count 3 - 3) with 3 in K; lia|].
  intros v' known' C. pose proof (cp_known _ _ _ _ _ _ _ _ C) as K. change (node_count 3) with 6 in K. split.
  - apply (K 0); [lia|]. right. right. split; [cbn; lia|]. split.
    + apply (K 1); [lia|]. right. right. split; [cbn; lia|]. split; [apply (K 3); [lia|]|intros _; apply (K 4); [lia|]]; right; left; [exists 0, d|exists 1, d']; split; reflexivity.
    + intros _. apply (K 2); [lia|]. left. reflexivity.
  - rewrite (cp_kept _ _ _ _ _ _ _ _ C 2); [|change (node_count 3) with 6; lia|left; reflexivity]. cbn [opened nodes Nat.eqb]. apply firstn_all2. unfold s. lia.
Qed.
