(** Seed trees (tree.c) in the language of MiniC.

    Pointers: 0 the round constants of Keccak, 3 rootSeed, 4 salt, 9 tree->nodes, 10 tree->haveNode, 11 tree->exists, 12 tmp. The
    numbers in the struct are arguments of the programs; loops over nodes are written out. *)

From Coq Require Import List NArith Arith Bool.
From Verif Require Import Base Params Env MiniC CodeLowMC CodeHashUses Tree.
Import ListNotations.
Local Open Scope c_scope.

(** tree.c:49-50: tree->numNodes for [n] leaves. *)
Definition num_nodes (n : nat) : nat := let depth := ceil_log2_nat n + 1 in (2 ^ depth - 1) - (2 ^ (depth - 1) - n).

(** tree.c:34-43 [exists], for a tree of [nn] nodes; index 1: the result. *)
Definition c_exists (nn i : nat) : stmt :=
  If (CLt (IC i) (IC nn)) (Ld 1 0 (PAdd (P0 11) (IC i)) ;; IfD (DV 0) (ISet 1 (IC 1)) (ISet 1 (IC 0))) (ISet 1 (IC 0)).

(** tree.c:67-71: body of the loop of createTree, and the loop from [i] down to 1. *)
Definition c_mark (nn i : nat) : stmt :=
  c_exists nn (2 * i + 1) ;;
  If (CEq (IV 1) (IC 1)) (St 1 (PAdd (P0 11) (IC i)) (DC 1))
    (c_exists nn (2 * i + 2) ;; If (CEq (IV 1) (IC 1)) (St 1 (PAdd (P0 11) (IC i)) (DC 1)) Skip).
Fixpoint c_marks (nn i : nat) : stmt := match i with 0 => Skip | S i' => c_mark nn i ;; c_marks nn i' end.

(** tree.c:66-72: [createTree] for [n] leaves, after the allocations (calloc gives zero bytes). *)
Definition c_createTree (n : nat) : stmt :=
  let nn := num_nodes n in
  MemSet (PAdd (P0 11) (IC (nn - n))) 1 (IC n) ;;
  c_marks nn (nn - n) ;;
  St 1 (P0 11) (DC 1).

Section Seeds.
Variable P : paramset.

(** memcpy(tree->nodes[x], tmp + o, params->seedSizeBytes); tree->haveNode[x] = 1. *)
Definition c_put_seed (x o : nat) : stmt :=
  MemCpy (PV 9 (IC x)) (PAdd (P0 12) (IC o)) (IC (seedSizeBytes P)) ;; St 1 (PAdd (P0 10) (IC x)) (DC 1).

(** tree.c:144-164: body of the loop of [expandSeeds], and [k] iterations from [i] on. *)
Definition c_expand (nn rep i : nat) : stmt :=
  Ld 1 0 (PAdd (P0 10) (IC i)) ;;
  IfD (DV 0)
    (Call (c_hashSeed P HASH_PREFIX_1 rep i) [] [] [PA 0; PL []; PL []; PL [PV 9 (IC i)]; PA 4; PA 12] [] [] ;;
     Ld 1 0 (PAdd (P0 10) (IC (2 * i + 1))) ;;
     IfD (DV 0) Skip (c_put_seed (2 * i + 1) 0) ;;
     c_exists nn (2 * i + 2) ;;
     If (CEq (IV 1) (IC 1))
       (Ld 1 0 (PAdd (P0 10) (IC (2 * i + 2))) ;; IfD (DV 0) Skip (c_put_seed (2 * i + 2) (seedSizeBytes P)))
       Skip)
    Skip.
Fixpoint c_expands (nn rep i k : nat) : stmt := match k with 0 => Skip | S k' => c_expand nn rep i ;; c_expands nn rep (S i) k' end.

(** tree.c:101-109 [getParent] on a number. *)
Definition parent (x : nat) : nat := if x mod 2 =? 1 then (x - 1) / 2 else (x - 2) / 2.

(** tree.c:136-166 [expandSeeds], for a tree of [nn] nodes. *)
Definition c_expandSeeds (nn rep : nat) : stmt := Loc 12 (IC (2 * MAX_SEED_SIZE_BYTES)) (c_expands nn rep 0 (parent (nn - 1) + 1)).

(** tree.c:168-177 [generateSeeds], after the allocations of createTree. *)
Definition c_generateSeeds (n rep : nat) : stmt :=
  c_createTree n ;;
  MemCpy (PV 9 (IC 0)) (P0 3) (IC (seedSizeBytes P)) ;;
  St 1 (P0 10) (DC 1) ;;
  c_expandSeeds (num_nodes n) rep.
End Seeds.
