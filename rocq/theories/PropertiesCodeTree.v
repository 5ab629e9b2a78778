(** Seed trees as a program on memory with pointers. *)

From Coq Require Import List NArith Arith Bool Lia.
From Verif Require Import Base Params Env Spec MiniC CodeSpec HashSpec CodeZkbSpec TreeSpec CodeTree CodeTreeSpec.
From Verif Require Import BaseFacts ParamFacts CodeWitness Witness CodeTreeThm.
Import ListNotations.

(** C96: generateSeeds on memory, with SHAKE by the code of sha3/, runs to the end and changes only the nodes and the two arrays of
    flags of the new tree. Every node above a leaf, and every leaf, then holds the seed that its path from the root derives by
    hashing; both arrays of flags say which nodes these are. *)
Theorem C96_generate_seeds_code : forall U E p P n rep st q root salt,
  locals_ok U -> env_bytes_ok E -> get_param_set p = Some P -> 2 <= n -> Nat.log2_up n < 30 -> seeds_call P n st q root salt ->
  exists st' t, run U (c_generateSeeds P n rep) st = Some (st', t) /\ nx st' = nx st /\ chg (nx st) (mm st) (mm st') (tree_parts n (seedSizeBytes P) q) /\
    (forall path, let x := seed_of (with_shake E) P root salt rep path in above_leaf n (fst x) -> holds st' (q (fst x)) (snd x)) /\
    (forall l, l < n -> exists path, let x := seed_of (with_shake E) P root salt rep path in fst x = node_count n - n + l /\ holds st' (q (node_count n - n + l)) (snd x)) /\
    (exists b, holds st' (q (node_count n)) b /\ marks_nodes n b) /\ (exists b, holds st' (q (node_count n + 1)) b /\ marks_nodes n b).
Proof. exact seeds_code. Qed.
Print Assumptions C96_generate_seeds_code.

(** Every parameter set and every number of leaves, with the nodes in one block as createTree allocates them. With 5 leaves there
    are 12 nodes; node 5 is above the last leaf, and node 6 is above none. *)
Example C96_example : forall p P n root salt, get_param_set p = Some P -> bytes_ok root -> bytes_ok salt ->
  seedSizeBytes P <= length root -> length salt = saltSizeBytes P ->
  locals_ok zero_locals /\ env_bytes_ok toy_env /\ seeds_call P n (seeds_state P n root salt) (tree_place n (seedSizeBytes P)) root salt /\
  node_count 5 = 12 /\ above_leaf 5 5 /\ ~ above_leaf 5 6.
Proof.
  intros p P n root salt HP B3 B4 L3 L4. split; [exact zero_locals_ok|]. split; [exact toy_env_bytes|].
  split; [apply seeds_called; auto; apply (seed_sizes p P HP)|]. split; [reflexivity|]. split; [exists 4, 1; split; [lia|reflexivity]|].
  intros (l & k & Hl & E). change (2 ^ Nat.log2_up 5) with 8 in E. change (6 + 1) with 7 in E.
  destruct k as [|[|k]]; [rewrite Nat.div_1_r in E; lia|change (2 ^ 1) with 2 in E; do 5 (destruct l as [|l]; [discriminate E|]); lia|].
  assert ((8 + l) / 2 ^ S (S k) <= 3); [|lia]. assert (X : (8 + l) / 2 ^ S (S k) < 4); [|lia].
  apply Nat.div_lt_upper_bound; [apply Nat.pow_nonzero; discriminate|]. cbn [Nat.pow]. assert (2 ^ k <> 0) by (apply Nat.pow_nonzero; discriminate). lia.
Qed.
