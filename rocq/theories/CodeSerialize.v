(** ZKB++ signatures as bytes (serializeSignature of picnic_impl.c) and signing as offered to callers (picnic_sign of
    picnic.c, ZKB++ parameter sets), in the language of MiniC. *)

From Coq Require Import List NArith Arith Bool.
From Verif Require Import Base Params Env Picnic1 MiniC CodeLowMC CodeVerAll CodeSignAll.
Import ListNotations.
Local Open Scope c_scope.

Section Serialize.
Variable P : paramset.
Let T := numMPCRounds P.

(** Variables of serializeSignature. Pointers: 0 the first value of sigBytes, 1 sig->challengeBits, 2 sig->salt, 3 the
    buffers of sig->proofs (per_proof entries for each round: seed1, seed2, inputShare, communicatedBits, view3Commitment,
    view3UnruhG). Index: 0 sigBytesLen, 1 challenge, 2 i, 4 sigBytes - sigBytesBase, 5 set to 0 when the function
    returns -1. *)
(** memcpy(sigBytes, src, n); sigBytes += n. *)
Definition c_put (src : pexp) (n : nat) : stmt := MemCpy (PAdd (P0 0) (IV 4)) src (IC n) ;; ISet 4 (IAdd (IV 4) (IC n)).
(** Buffer [e] of proofs[i]. *)
Definition of_proof (e : nat) : pexp := PV 3 (IAdd (IMul (IC (per_proof P)) (IV 2)) (IC e)).
(** picnic_impl.c:1009-1033, one iteration. *)
Definition c_put_round : stmt :=
  c_getChallenge 1 (P0 1) (IV 2) ;;
  c_put (of_proof 4) (digestSizeBytes P) ;;
  (if is_UR (transf P)
   then If (CEq (IV 1) (IC 0)) (c_put (of_proof 5) (UnruhGWithInputBytes P)) (c_put (of_proof 5) (UnruhGWithoutInputBytes P))
   else Skip) ;;
  c_put (of_proof 3) (andSizeBytes P) ;;
  c_put (of_proof 0) (seedSizeBytes P) ;;
  c_put (of_proof 1) (seedSizeBytes P) ;;
  If (CEq (IV 1) (IC 1)) (c_put (of_proof 2) (stateSizeBytes P))
    (If (CEq (IV 1) (IC 2)) (c_put (of_proof 2) (stateSizeBytes P)) Skip).
(** picnic_impl.c:982-1038. *)
Definition c_serialize : stmt :=
  If (CLt (IV 0) (IC (serialize_bytesRequired P))) (ISet 5 (IC 0))
    (ISet 5 (IC 1) ;; ISet 4 (IC 0) ;;
     c_put (P0 1) (numBytes (2 * T)) ;;
     c_put (P0 2) (saltSizeBytes P) ;;
     For 2 (IC 0) (IC T) 1 c_put_round).

(** Variables of picnic_sign. Pointers: 0-24 as in CodeSignAll, 25 signature. Index: 2, 3 the results of sign_picnic1, 5
    set to 0 when the function returns -1, 6 the result of serializeSignature, 10 *signature_len. *)
(** picnic.c:267-304, 334 after the allocations, without the calls of free. *)
Definition c_picnic_sign (message_len fuel : nat) : stmt :=
  ISet 5 (IC 0) ;;
  Call (c_sign P message_len fuel) [] []
    [PA 0; PA 1; PA 2; PA 3; PA 4; PA 5; PA 6; PA 7; PA 8; PA 9; PA 10; PA 11; PA 12; PA 13; PA 14; PA 15;
     PL []; PL []; PL []; PL []; PA 20; PL []; PA 22; PA 23; PA 24] [(2, 2); (3, 3)] [] ;;
  If (CEq (IV 2) (IC 0)) Skip (If (CEq (IV 3) (IC 0)) Skip
    (Call c_serialize [IV 10] [] [PA 25; PA 23; PA 11; PA 24] [(5, 5); (6, 4)] [] ;;
     If (CEq (IV 5) (IC 0)) Skip (ISet 10 (IV 6)))).
End Serialize.
