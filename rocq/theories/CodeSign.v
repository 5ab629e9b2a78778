(** The rounds of ZKB++ signing (sign_picnic1 of picnic_impl.c) in the language of MiniC. *)

From Coq Require Import List NArith Arith Bool.
From Verif Require Import Base Params Env LowMC MiniC CodeLowMC CodeZkb CodeP3 CodeKeccak CodeHashUses.
Import ListNotations.
Local Open Scope c_scope.

(** picnic_impl.c:74-80 [zeroTrailingBits]. Pointer: 0 data. Index: 0 i. *)
Definition zeroTrailingBits_body (bitLength : nat) : stmt :=
  For 0 (IC bitLength) (IC (numBytes bitLength * 8)) 1 (c_setBit (P0 0) (IV 0) (DC 0)).
Definition c_zeroTrailingBits (data : pexp) (bitLength : nat) : stmt := Call (zeroTrailingBits_body bitLength) [] [] [PL [data]] [] [].

Section Sign.
Variable P : paramset.
Let sB := stateSizeBytes P.
Let aB := andSizeBytes P.

(** Variables of one round. Pointers: arrays 0 tape.tape, 1 views[k][.].inputShare, 2 views[k][.].communicatedBits, 3
    views[k][.].outputShare; 4 plaintext, 5 tmp; arrays 6, 7, 8 the constants of LowMC; 9 KeccakRoundConstants, 10
    seeds[k].seed (array), 11 sig->salt, 12 privateKey, 13 pubKey, 14 as[k].hashes, 15 gs[k].G (arrays), 16 temp.
    Index: 0 tape.pos, 1 status of createRandomTape, 2 set to 0 when the function fails, to 1 otherwise. Data: 0 the
    result of memcmp. *)
Definition call_tape (k j : nat) (tape : pexp) (len : nat) : stmt :=
  Call (c_createRandomTape P k j len) [] [] [PA 9; PL []; PL []; PL [PV 10 (IC j)]; PL [PV 11 (IC 0)]; PL [tape]] [(1, 12)] [].
Definition call_Commit (j : nat) : stmt :=
  Call (c_Commit P) [] [] [PA 9; PL []; PL []; PL [PV 10 (IC j)]; PL [PV 1 (IC j); PV 2 (IC j); PV 3 (IC j)]; PL [PV 14 (IC j)]] [] [].
Definition call_G (j : nat) : stmt :=
  Call (c_G P j) [] [] [PA 9; PL []; PL []; PL [PV 10 (IC j)]; PL [PV 1 (IC j); PV 2 (IC j); PV 3 (IC j)]; PL [PV 15 (IC j)]] [] [].
(** if (!status) return EXIT_FAILURE; *)
Definition or_fail (s : stmt) : stmt := If (CEq (IV 1) (IC 0)) (ISet 2 (IC 0)) s.

(** picnic_impl.c:892-901, the input share and tape of party 0 or 1. *)
Definition c_share (k j : nat) (s : stmt) : stmt :=
  call_tape k j (P0 5) (sB + aB) ;;
  or_fail (MemCpy (PV 1 (IC j)) (P0 5) (IC sB) ;; c_zeroTrailingBits (PV 1 (IC j)) (stateSizeBits P) ;;
           MemCpy (PV 0 (IC j)) (PAdd (P0 5) (IC sB)) (IC aB) ;; s).
(** picnic_impl.c:903-918, the tape and input share of party 2, the computation and its result. *)
Definition c_simulate (k : nat) (s : stmt) : stmt :=
  call_tape k 2 (PV 0 (IC 2)) aB ;;
  or_fail (c_xor_three (PV 1 (IC 2)) (P0 12) (PV 1 (IC 0)) (PV 1 (IC 1)) (IC sB) ;;
           ISet 0 (IC 0) ;;
           c_mpc_LowMC P 0 1 2 3 (PV 4 (IC 0)) (PV 5 (IC 0)) 6 7 8 0 ;;
           Loc 16 (IC LOWMC_MAX_STATE_BYTES)
             (MemSet (P0 16) 0 (IC LOWMC_MAX_STATE_BYTES) ;;
              c_xor_three (P0 16) (PV 3 (IC 0)) (PV 3 (IC 1)) (PV 3 (IC 2)) (IC sB) ;;
              c_memcmp 0 (P0 16) (P0 13) (IC sB)) ;;
           s).
(** picnic_impl.c:924-932, the commitments. *)
Definition c_commitments : stmt :=
  call_Commit 0 ;; call_Commit 1 ;; call_Commit 2 ;;
  if is_UR (transf P) then call_G 0 ;; call_G 1 ;; call_G 2 else Skip.
(** picnic_impl.c:890-933, one iteration of the loop. *)
Definition c_sign_round (k : nat) : stmt :=
  c_share k 0 (c_share k 1 (c_simulate k (IfD (DV 0) (ISet 2 (IC 0)) (c_commitments ;; ISet 2 (IC 1))))).

(** picnic_impl.c:890-933, the loop, written out. The arrays 1, 2, 3, 10, 14, 15 have three entries for each round. *)
Definition row (a k : nat) : parg := PL [PV a (IC (3 * k)); PV a (IC (3 * k + 1)); PV a (IC (3 * k + 2))].
Definition call_sign_round (k : nat) : stmt :=
  Call (c_sign_round k) [] []
    [PA 0; row 1 k; row 2 k; row 3 k; PA 4; PA 5; PA 6; PA 7; PA 8; PA 9; row 10 k; PA 11; PA 12; PA 13; row 14 k;
     if is_UR (transf P) then row 15 k else PL []] [(2, 2)] [].
Fixpoint c_sign_rounds (n k : nat) : stmt :=
  match n with
  | O => Skip
  | S n' => call_sign_round k ;; If (CEq (IV 2) (IC 0)) Skip (c_sign_rounds n' (S k))
  end.
(** The loop from the start; with no rounds nothing fails. *)
Definition c_sign_loop : stmt := ISet 2 (IC 1) ;; c_sign_rounds (numMPCRounds P) 0.
End Sign.
