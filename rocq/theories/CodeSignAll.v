(** ZKB++ signing (sign_picnic1 of picnic_impl.c) from the seeds to the signature, in the language of MiniC. *)

From Coq Require Import List NArith Arith Bool.
From Verif Require Import Base Params Env LowMC MiniC CodeLowMC CodeZkb CodeP3 CodeKeccak CodeHashUses CodeSign CodeVerAll.
Import ListNotations.
Local Open Scope c_scope.

Section Sign.
Variable P : paramset.
Let T := numMPCRounds P.
Let sB := stateSizeBytes P.
Let kB := seedSizeBytes P.

(** picnic_impl.c:435-464 [prove]. Pointer arrays: 0 proof->seed1, seed2, inputShare, communicatedBits, view3Commitment,
    view3UnruhG; 1 seeds->seed, 2 views[.].inputShare, 3 views[.].communicatedBits, 4 commitments->hashes, 5 gs->G. Index:
    0 challenge. The assertion that the challenge is at most 2 is left out (Skip). *)
Definition c_seeds_pair (i j : nat) : stmt := MemCpy (PV 0 (IC 0)) (PV 1 (IC i)) (IC kB) ;; MemCpy (PV 0 (IC 1)) (PV 1 (IC j)) (IC kB).
Definition c_input3 : stmt := MemCpy (PV 0 (IC 2)) (PV 2 (IC 2)) (IC sB).
Definition c_view3G (n : nat) : stmt := MemCpy (PV 0 (IC 5)) (PV 5 (IMod (IAdd (IV 0) (IC 2)) (IC 3))) (IC n).
Definition c_prove : stmt :=
  If (CEq (IV 0) (IC 0)) (c_seeds_pair 0 1) (If (CEq (IV 0) (IC 1)) (c_seeds_pair 1 2) (If (CEq (IV 0) (IC 2)) (c_seeds_pair 2 0) Skip)) ;;
  If (CEq (IV 0) (IC 1)) c_input3 (If (CEq (IV 0) (IC 2)) c_input3 Skip) ;;
  MemCpy (PV 0 (IC 3)) (PV 3 (IMod (IAdd (IV 0) (IC 1)) (IC 3))) (IC (andSizeBytes P)) ;;
  MemCpy (PV 0 (IC 4)) (PV 4 (IMod (IAdd (IV 0) (IC 2)) (IC 3))) (IC (digestSizeBytes P)) ;;
  (if is_UR (transf P) then If (CEq (IV 0) (IC 0)) (c_view3G (UnruhGWithInputBytes P)) (c_view3G (UnruhGWithoutInputBytes P)) else Skip).

(** Variables of sign_picnic1. Pointers: 0-15 as in CodeSign (arrays with three entries for each round), 20 the seeds
    (slab1 of allocateSeeds), 21 viewOutputs, 22 message, 23 sig->challengeBits, 24 the buffers of sig->proofs (per_proof
    entries for each round). Index: 1 challenge, 2 set to 0 when the function fails, 3 whether H3 finished. *)
Definition per_proof : nat := if is_UR (transf P) then 6 else 5.
(** picnic_impl.c:880-882. *)
Definition c_start (messageByteLength : nat) : stmt :=
  Call (c_computeSeeds P messageByteLength) [] [] [PA 9; PL []; PL []; PA 12; PA 22; PA 13; PA 4; PA 20] [] [] ;;
  MemCpy (P0 11) (PAdd (P0 20) (IC (T * 3 * kB))) (IC (saltSizeBytes P)).
(** picnic_impl.c:936-944. *)
Definition c_challenge (messageByteLength fuel : nat) : stmt :=
  PSet 21 (map (fun j => PV 3 (IC j)) (seq 0 (3 * T))) ;;
  Call (c_H3 P messageByteLength fuel) [] [] [PA 9; PL []; PL []; PA 21; PA 14; PA 15; PA 13; PA 4; PA 11; PA 22; PL []; PA 23] [(3, 5)] [].
(** picnic_impl.c:947-951, one iteration. *)
Definition c_pack (i : nat) : stmt :=
  c_getChallenge 1 (P0 23) (IC i) ;;
  Call c_prove [IV 1] [] [row 24 per_proof i; row 10 3 i; row 1 3 i; row 2 3 i; row 14 3 i; (if is_UR (transf P) then row 15 3 i else PL [])] [] [].
Fixpoint c_packs (is_ : list nat) : stmt := match is_ with [] => Skip | i :: r => c_pack i ;; c_packs r end.
(** picnic_impl.c:869-975 after the allocations, without the calls of free. *)
Definition c_sign (messageByteLength fuel : nat) : stmt :=
  c_start messageByteLength ;;
  c_sign_loop P ;;
  If (CEq (IV 2) (IC 0)) Skip
    (c_challenge messageByteLength fuel ;;
     If (CEq (IV 3) (IC 0)) Skip (c_packs (seq 0 T))).
End Sign.
