(** One round of ZKB++ verification (verify and verifyProof of picnic_impl.c) in the language of MiniC. *)

From Coq Require Import List NArith Arith Bool.
From Verif Require Import Base Params Env LowMC MiniC CodeLowMC CodeZkb CodeP3 CodeKeccak CodeHashUses CodeSign.
Import ListNotations.
Local Open Scope c_scope.

Section Verify.
Variable P : paramset.
Let sB := stateSizeBytes P.
Let aB := andSizeBytes P.

(** Variables. Pointers: arrays 0 tape->tape (the two that are used), 1 inputShare, 2 communicatedBits, 3 outputShare of
    view1s[i] and view2s[i]; 4 plaintext, 5 tmp; arrays 6, 7, 8 the constants of LowMC; 9 KeccakRoundConstants, 10
    proofs[i].seed1 and seed2, 11 sig->salt, 12 proofs[i].inputShare, 13 pubKey, 14 as[i].hashes, 15 gs[i].G (arrays), 16
    proofs[i].communicatedBits, 17 proofs[i].view3Commitment, 18 proofs[i].view3UnruhG, 19 view3Output. Index: 0
    tape->pos, 1 challenge, 2 status. *)

(** Party of opened view [e] for challenge [ch]. *)
Definition opened (ch e : nat) : nat := (ch + e) mod 3.
Definition call_vtape (i j e : nat) (tape : pexp) (len : nat) : stmt :=
  Call (c_createRandomTape P i j len) [] [] [PA 9; PL []; PL []; PL [PV 10 (IC e)]; PL [PV 11 (IC 0)]; PL [tape]] [(2, 12)] [].
(** picnic_impl.c:562-601: the random tape of an opened view, and where its parts go. *)
Definition c_vtape (i ch e : nat) : stmt :=
  if opened ch e <? 2 then call_vtape i (opened ch e) e (P0 5) (sB + aB) else call_vtape i 2 e (PV 0 (IC e)) aB.
Definition c_vparts (ch e : nat) : stmt :=
  if opened ch e <? 2 then MemCpy (PV 1 (IC e)) (P0 5) (IC sB) ;; MemCpy (PV 0 (IC e)) (PAdd (P0 5) (IC sB)) (IC aB)
  else MemCpy (PV 1 (IC e)) (P0 12) (IC sB).
(** picnic_impl.c:551-616 [verifyProof] for challenge [ch]. *)
Definition c_verifyProof (i ch : nat) : stmt :=
  MemCpy (PV 2 (IC 1)) (P0 16) (IC aB) ;;
  ISet 0 (IC 0) ;;
  c_vtape i ch 0 ;; c_vparts ch 0 ;;
  If (CEq (IV 2) (IC 0)) Skip (c_vtape i ch 1 ;; If (CEq (IV 2) (IC 0)) Skip (c_vparts ch 1)) ;;
  c_zeroTrailingBits (PV 1 (IC 0)) (stateSizeBits P) ;; c_zeroTrailingBits (PV 1 (IC 1)) (stateSizeBits P) ;;
  c_mpc_LowMC_verify P 0 1 2 3 (PV 4 (IC 0)) (PV 5 (IC 0)) 6 7 8 0 (IV 1).
(** picnic_impl.c:656-657, 661-662. *)
Definition call_vCommit (ch e : nat) : stmt :=
  Call (c_Commit P) [] [] [PA 9; PL []; PL []; PL [PV 10 (IC e)]; PL [PV 1 (IC e); PV 2 (IC e); PV 3 (IC e)]; PL [PV 14 (IC (opened ch e))]] [] [].
Definition call_vG (ch e : nat) : stmt :=
  Call (c_G P (opened ch e)) [] [] [PA 9; PL []; PL []; PL [PV 10 (IC e)]; PL [PV 1 (IC e); PV 2 (IC e); PV 3 (IC e)]; PL [PV 15 (IC (opened ch e))]] [] [].
(** picnic_impl.c:649-671, one iteration of the loop for challenge [ch]. The pointers VIEW_OUTPUTS are left out. *)
Definition c_verify_challenge (i ch : nat) : stmt :=
  c_verifyProof i ch ;;
  call_vCommit ch 0 ;; call_vCommit ch 1 ;; MemCpy (PV 14 (IC (opened ch 2))) (P0 17) (IC (digestSizeBytes P)) ;;
  (if is_UR (transf P) then
     call_vG ch 0 ;; call_vG ch 1 ;;
     MemCpy (PV 15 (IC (opened ch 2))) (P0 18) (IC (if ch =? 0 then UnruhGWithInputBytes P else UnruhGWithoutInputBytes P))
   else Skip) ;;
  c_xor_three (P0 19) (PV 3 (IC 0)) (PV 3 (IC 1)) (P0 13) (IC sB).
(** Challenge 3 does not occur: deserialization refuses it. *)
Definition c_verify_round (i : nat) : stmt :=
  If (CEq (IV 1) (IC 0)) (c_verify_challenge i 0) (If (CEq (IV 1) (IC 1)) (c_verify_challenge i 1) (c_verify_challenge i 2)).
End Verify.
