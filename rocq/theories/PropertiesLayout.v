(** Property theorems: layout of the arrays carved from one allocation. *)

From Coq Require Import List NArith Arith Bool.
From Verif Require Import Base Params Memory Alloc MemSpec LayoutSpec.
From Verif Require Import MemTop LayoutProofs.
Import ListNotations.

Local Open Scope nat_scope.

(** C51: from any memory, the allocation functions return a table from which every element can be
    reached; the tables and elements lie in new blocks, inside them, and no two overlap.  First
    allocateCommitments: [c[t].hashes[j]]. *)
Theorem C51_commitments : forall p P k0 m,
  get_param_set p = Some P -> mem_wf m ->
  let k := if k0 =? 0 then numMPCParties P else k0 in
  exists c m' a e, allocateCommitments P k0 m = Ok (c, m') /\
    (forall t, t < numMPCRounds P -> reads m' (c +p 16 * t) (a t)) /\
    (forall t j, t < numMPCRounds P -> j < k -> reads m' (a t +p 8 * j) (e t j)) /\
    laid_out m m' ((c, numMPCRounds P * 16) :: each a (numMPCRounds P) (8 * k) ++ each2 e (numMPCRounds P) k (digestSizeBytes P)).
Proof. exact commitments_p. Qed.
Print Assumptions C51_commitments.

(** allocateMsgs: [c[t].msgs[j]]. *)
Theorem C51_msgs : forall p P m,
  get_param_set p = Some P -> is_picnic3 p = true -> mem_wf m ->
  exists c m' a e, allocateMsgs P m = Ok (c, m') /\
    (forall t, t < numMPCRounds P -> reads m' (c +p 24 * t) (a t)) /\
    (forall t j, t < numMPCRounds P -> j < numMPCParties P -> reads m' (a t +p 8 * j) (e t j)) /\
    laid_out m m' ((c, numMPCRounds P * 24) :: each a (numMPCRounds P) (8 * numMPCParties P) ++
      each2 e (numMPCRounds P) (numMPCParties P) (andSizeBytes P)).
Proof. exact msgs_p. Qed.
Print Assumptions C51_msgs.

(** allocateSeeds: [c[t].seed[j]], [c[t].iSeed] and the salt [c[T].iSeed].  Moreover all seeds and, for ZKB++,
    the salt are consecutive, as the code that fills them with one call relies on. *)
Theorem C51_seeds : forall p P m,
  get_param_set p = Some P -> mem_wf m ->
  let T := numMPCRounds P in let n := numMPCParties P in let sz := seedSizeBytes P in
  exists c m' a e s, allocateSeeds P m = Ok (c, m') /\
    (forall t, t < T -> reads m' (c +p 16 * t) (a t)) /\
    (forall t j, t < T -> j < n -> reads m' (a t +p 8 * j) (e t j)) /\
    (forall t, t <= T -> reads m' (c +p (16 * t + 8)) (s t)) /\
    (forall t j, t < T -> j < n -> e t j = e 0 0 +p (t * n + j) * sz) /\
    (forall t, t < T -> s t = s 0 +p t * sz) /\
    s T = (if n =? 3 then e 0 0 +p T * n * sz else s 0 +p T * sz) /\
    laid_out m m' ((c, (T + 1) * 16) :: each a T (8 * n) ++ each2 e T n sz ++ each s T sz ++ [(s T, saltSizeBytes P)]).
Proof. exact seeds_p. Qed.
Print Assumptions C51_seeds.

(** allocateInputs: [c[t]]. *)
Theorem C51_inputs : forall P m, mem_wf m ->
  exists c m' e, allocateInputs P m = Ok (c, m') /\
    (forall t, t < numMPCRounds P -> reads m' (c +p 8 * t) (e t)) /\
    laid_out m m' ((c, numMPCRounds P * 8) :: each e (numMPCRounds P) (4 * stateSizeWords P)).
Proof. exact inputs_pf. Qed.
Print Assumptions C51_inputs.

(** allocateGCommitments, for the Unruh transform: [c[t].G[j]]. *)
Theorem C51_gcommitments : forall P m, mem_wf m -> is_UR (transf P) = true ->
  exists c m' e, allocateGCommitments P m = Ok (c, m') /\
    (forall t j, t < numMPCRounds P -> j < 3 -> reads m' (c +p (24 * t + 8 * j)) (e t j)) /\
    laid_out m m' ((c, numMPCRounds P * 24) :: each2 e (numMPCRounds P) 3 (UnruhGWithInputBytes P)).
Proof. exact gcommitments_pf. Qed.
Print Assumptions C51_gcommitments.

(** allocateRandomTape into the structure at block [b], offset [o]: [tape->tape[j]]. *)
Theorem C51_random_tape : forall P m b o c, mem_wf m -> In (Cel b o c) (live m) ->
  exists m' a e, allocateRandomTape P (Loc b o) m = Ok (tt, m') /\
    reads m' (Loc b o) a /\ (forall j, j < numMPCParties P -> reads m' (a +p 8 * j) (e j)) /\
    (forall x, In x (live m) -> x = Cel b o c \/ In x (live m')) /\
    let rs := (a, 8 * numMPCParties P) :: each e (numMPCParties P) (2 * andSizeBytes P) in
    Forall (inside m') rs /\ Forall (fresh m) rs /\ ForallOrdPairs apart rs.
Proof. exact tape_pf. Qed.
Print Assumptions C51_random_tape.

(** createTree: [c->nodes[i]], for any number of leaves and any size of the nodes. *)
Theorem C51_tree : forall l ds m, mem_wf m ->
  exists c m' a e, createTree_mem l ds m = Ok (c, m') /\
    reads m' (c +p 8) a /\ (forall i, i < tree_nodes l -> reads m' (a +p 8 * i) (e i)) /\
    laid_out m m' ((c, 56) :: (a, 8 * tree_nodes l) :: each e (tree_nodes l) ds).
Proof. exact tree_pf. Qed.
Print Assumptions C51_tree.

(** A memory with other blocks, a set with the Unruh transform and one of Picnic3; a tree with 5 leaves. *)
Example C51_example : exists P P3 m,
  get_param_set Picnic_L1_UR = Some P /\ is_UR (transf P) = true /\ get_param_set Picnic3_L5 = Some P3 /\
  mem_wf m /\ In (Cel 3 8 Undef) (live m) /\ tree_nodes 5 = 12.
Proof.
  eexists. eexists. exists (mkMem [Tok 1 7 true; Tok 3 24 true; Cel 3 8 Undef; Cel 3 0 (Ptr (Loc 1 0))] 4 (fun _ => false)).
  split; [reflexivity|]. split; [reflexivity|]. split; [reflexivity|]. split; [|split; [right; right; left; reflexivity|reflexivity]].
  split; [|intros k; reflexivity]. split.
  - repeat constructor; cbn; intuition congruence.
  - cbn. intuition (subst; cbn; auto with arith).
  - cbn. intros b o c [H|[H|[H|[H|[]]]]]; try discriminate H; injection H as <- <- <-; exists 24, true.
    + exists 1. split; [auto|]. split; [reflexivity|]. apply Nat.ltb_lt. reflexivity.
    + exists 0. split; [auto|]. split; [reflexivity|]. apply Nat.ltb_lt. reflexivity.
Qed.
