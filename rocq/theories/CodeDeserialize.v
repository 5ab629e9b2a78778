(** Reading ZKB++ signatures from bytes (deserializeSignature of picnic_impl.c) and verification as offered to callers
    (picnic_verify of picnic.c, ZKB++ parameter sets), in the language of MiniC. *)

From Coq Require Import List NArith Arith Bool.
From Verif Require Import Base Params Env Picnic1 MiniC CodeLowMC CodeVerAll CodeSignAll.
Import ListNotations.
Local Open Scope c_scope.

Section Deserialize.
Variable P : paramset.
Let T := numMPCRounds P.

(** picnic_impl.c:1041-1056 [computeInputShareSize]. Pointer: 0 challengeBits. Index: 1 challenge, 2 i, 3 inputShareSize. *)
Definition share_size_body : stmt :=
  ISet 3 (IC 0) ;;
  For 2 (IC 0) (IC T) 1
    (c_getChallenge 1 (P0 0) (IV 2) ;;
     If (CEq (IV 1) (IC 1)) (ISet 3 (IAdd (IV 3) (IC (stateSizeBytes P))))
       (If (CEq (IV 1) (IC 2)) (ISet 3 (IAdd (IV 3) (IC (stateSizeBytes P)))) Skip)).

(** picnic_impl.c:1058-1067 [isChallengeValid]. Pointer: 0 challengeBits. Index: 1 challenge, 5 the result. The loop, which
    can be left early, is written out: [is_] are the values of i. *)
Fixpoint valid_body (is_ : list nat) : stmt :=
  match is_ with
  | [] => ISet 5 (IC 1)
  | i :: r => c_getChallenge 1 (P0 0) (IC i) ;; If (CLt (IC 2) (IV 1)) (ISet 5 (IC 0)) (valid_body r)
  end.

(** picnic_impl.c:1069-1079 [arePaddingBitsZero]. Pointer: 0 data. Data: 0 bit_i. Index: 5 the result. Loop as above. *)
Fixpoint padding_body (is_ : list nat) : stmt :=
  match is_ with
  | [] => ISet 5 (IC 1)
  | i :: r => c_getBit 0 (P0 0) (IC i) ;; IfD (DV 0) (ISet 5 (IC 0)) (padding_body r)
  end.
Definition padding_bits : list nat := seq (stateSizeBits P) (numBytes (stateSizeBits P) * 8 - stateSizeBits P).

(** Variables of deserializeSignature. Pointers: 0 the first value of sigBytes, 1 sig->challengeBits, 2 sig->salt, 3 the
    buffers of sig->proofs (per_proof entries for each round, as in CodeSerialize). Index: 0 sigBytesLen, 1 challenge, 4
    how far sigBytes has moved, 5 set to 1 when the function returns EXIT_SUCCESS, 6 inputShareSize, 7 bytesExpected, 8
    the result of isChallengeValid, 9 that of arePaddingBitsZero (1 where it is not called). *)
(** memcpy(dst, sigBytes, n); sigBytes += n. *)
Definition c_take (dst : pexp) (n : nat) : stmt := MemCpy dst (PAdd (P0 0) (IV 4)) (IC n) ;; ISet 4 (IAdd (IV 4) (IC n)).
(** Buffer [e] of proofs[i]. *)
Definition part_of (i e : nat) : pexp := PV 3 (IC (per_proof P * i + e)).
(** picnic_impl.c:1132-1137. *)
Definition c_take_share (i : nat) : stmt :=
  c_take (part_of i 2) (stateSizeBytes P) ;; Call (padding_body padding_bits) [] [] [PL [part_of i 2]] [(9, 5)] [].
(** picnic_impl.c:1111-1141, one iteration. *)
Definition c_take_round (i : nat) : stmt :=
  ISet 9 (IC 1) ;;
  c_getChallenge 1 (P0 1) (IC i) ;;
  c_take (part_of i 4) (digestSizeBytes P) ;;
  (if is_UR (transf P)
   then If (CEq (IV 1) (IC 0)) (c_take (part_of i 5) (UnruhGWithInputBytes P)) (c_take (part_of i 5) (UnruhGWithoutInputBytes P))
   else Skip) ;;
  c_take (part_of i 3) (andSizeBytes P) ;;
  c_take (part_of i 0) (seedSizeBytes P) ;;
  c_take (part_of i 1) (seedSizeBytes P) ;;
  If (CEq (IV 1) (IC 1)) (c_take_share i) (If (CEq (IV 1) (IC 2)) (c_take_share i) Skip).
(** The loop, which can be left early, is written out. *)
Fixpoint c_take_rounds (is_ : list nat) : stmt :=
  match is_ with
  | [] => ISet 5 (IC 1)
  | i :: r => c_take_round i ;; If (CEq (IV 9) (IC 0)) Skip (c_take_rounds r)
  end.
(** picnic_impl.c:1081-1146. *)
Definition c_deserialize : stmt :=
  ISet 5 (IC 0) ;;
  If (CLt (IV 0) (IC (numBytes (2 * T)))) Skip
    (Call share_size_body [] [] [PA 0] [(6, 3)] [] ;;
     ISet 7 (IAdd (IC (numBytes (2 * T) + saltSizeBytes P + T * (2 * seedSizeBytes P + andSizeBytes P + digestSizeBytes P))) (IV 6)) ;;
     (if is_UR (transf P) then ISet 7 (IAdd (IV 7) (IC (UnruhGWithoutInputBytes P * T))) else Skip) ;;
     If (CLt (IV 0) (IV 7)) Skip
       (ISet 4 (IC 0) ;;
        c_take (P0 1) (numBytes (2 * T)) ;;
        Call (valid_body (seq 0 T)) [] [] [PA 1] [(8, 5)] [] ;;
        If (CEq (IV 8) (IC 0)) Skip
          (c_take (P0 2) (saltSizeBytes P) ;; c_take_rounds (seq 0 T)))).

(** Variables of picnic_verify. Pointers: 0-22 as in CodeVerAll (10, 11, 12, 16, 17, 18, 20: parts of *sig), 24 the buffers
    of sig->proofs as above, 25 signature. Index: 2, 3 the results of verify, 5 the result of deserializeSignature, 6 set
    to 1 when the function returns 0, 10 signature_len. *)
(** picnic.c:394-422, 451 after the allocations (also those of verify), without the calls of free. *)
Definition c_picnic_verify (message_len fuel : nat) : stmt :=
  ISet 6 (IC 0) ;;
  Call c_deserialize [IV 10] [] [PA 25; PA 20; PA 11; PA 24] [(5, 5)] [] ;;
  If (CEq (IV 5) (IC 0)) Skip
    (Call (c_verify P message_len fuel) [] []
       [PA 0; PA 1; PA 2; PA 3; PA 4; PA 5; PA 6; PA 7; PA 8; PA 9; PA 10; PA 11; PA 12; PA 13; PA 14; PA 15;
        PA 16; PA 17; PA 18; PA 19; PA 20; PL []; PA 22] [(2, 2); (3, 3)] [] ;;
     If (CEq (IV 2) (IC 0)) Skip (ISet 6 (IV 3))).
End Deserialize.
