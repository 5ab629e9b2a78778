(** Checking a Merkle tree as a program on memory with pointers. *)

From Coq Require Import List NArith Arith Bool Lia.
From Verif Require Import Base Params Env Spec MiniC CodeSpec HashSpec CodeZkbSpec CodeTreeSpec CodeMerkleSpec CodeVerifyTree CodeVerifyTreeSpec.
From Verif Require Import BaseFacts ParamFacts CodeWitness Witness CodeTreeThm CodeMerkleProofs CodeVerifyTreeProofs.
Import ListNotations.

(** C98: checking a Merkle tree of which some nodes are known, on memory and with SHAKE by the code of sha3/, runs to the end and
    changes only the nodes and flags of the tree. It fails if data is given for a leaf that is known. Otherwise the tree is completed
    as far as the known nodes and given leaves go, and it succeeds exactly if the root is known in the end. *)
Theorem C98_check_tree_code : forall U p P n st q v known leaves salt,
  locals_ok U -> get_param_set p = Some P -> 2 <= n -> Nat.log2_up n < 30 -> check_call P n st q v known leaves salt ->
  exists st' t, run U (c_verifyMerkleTree P n (supplied leaves)) st = Some (st', t) /\ nx st' = nx st /\ chg (nx st) (mm st) (mm st') (tree_parts n (digestSizeBytes P) q) /\
    ((exists x, given_leaf n leaves x /\ known x = true) -> iv st' 5 = 1) /\
    (~ (exists x, given_leaf n leaves x /\ known x = true) -> exists v' known', completes P n leaves salt v known v' known' /\
       (forall x, x < node_count n -> holds st' (q x) (v' x)) /\ holds st' (q (node_count n)) (flags n known') /\ iv st' 5 = if known' 0 then 0 else 1).
Proof. exact check_code. Qed.
Print Assumptions C98_check_tree_code.

(** Three leaves, of which the first two are given; node 2, above the third, is known. Nothing given is known: the root is computed from
    nodes 1 and 2. The same with node 3, the first leaf, known instead. *)
Example C98_example : forall p P d d' salt, get_param_set p = Some P -> bytes_ok d -> bytes_ok d' -> digestSizeBytes P <= length d -> digestSizeBytes P <= length d' ->
  bytes_ok salt -> length salt = saltSizeBytes P ->
  let leaves := [Some d; Some d'; None] in
  locals_ok zero_locals /\ Nat.log2_up 3 < 30 /\
  check_call P 3 (check_state P 3 (Nat.eqb 2) leaves salt) (tree_place 3 (digestSizeBytes P)) (fun _ => zeros (digestSizeBytes P)) (Nat.eqb 2) leaves salt /\
  ~ (exists x, given_leaf 3 leaves x /\ Nat.eqb 2 x = true) /\
  (forall v' known', completes P 3 leaves salt (fun _ => zeros (digestSizeBytes P)) (Nat.eqb 2) v' known' -> known' 0 = true) /\
  check_call P 3 (check_state P 3 (Nat.eqb 3) leaves salt) (tree_place 3 (digestSizeBytes P)) (fun _ => zeros (digestSizeBytes P)) (Nat.eqb 3) leaves salt /\
  given_leaf 3 leaves 3.
Proof.
  intros p P d d' salt HP B B' L L' B4 L4 leaves. split; [exact zero_locals_ok|]. split; [cbv; lia|].
  assert (LL : forall x, In (Some x) leaves -> bytes_ok x /\ digestSizeBytes P <= length x) by (intros x [K|[K|[K|[]]]]; inversion K; subst; auto).
  split.
  { apply check_called; auto; [apply (digest_sizes p P HP)|]. intros x _ K. apply Nat.eqb_eq in K. subst x. exists 2, 1. split; [lia|reflexivity]. }
  split.
  { intros (x & (l & y & -> & Hy) & K). change (node_count 3 - 3) with 3 in K. apply Nat.eqb_eq in K. lia. }
  split.
  { intros v' known' C. pose proof (cp_known _ _ _ _ _ _ _ _ C) as K. change (node_count 3) with 6 in K.
    apply (K 0); [lia|]. right. right. split; [cbn; lia|]. split.
    - apply (K 1); [lia|]. right. right. split; [cbn; lia|]. split; [apply (K 3); [lia|]|intros _; apply (K 4); [lia|]]; right; left; [exists 0, d|exists 1, d']; split; reflexivity.
    - intros _. apply (K 2); [lia|]. left. reflexivity. }
  split.
  { apply check_called; auto; [apply (digest_sizes p P HP)|]. intros x _ K. apply Nat.eqb_eq in K. subst x. exists 0, 0. split; [lia|reflexivity]. }
  exists 0, d. split; reflexivity.
Qed.
