(** ZKB++ verification (verify of picnic_impl.c) and the challenge (H3) in the language of MiniC. *)

From Coq Require Import List NArith Arith Bool.
From Verif Require Import Base Params Env LowMC MiniC CodeLowMC CodeZkb CodeP3 CodeKeccak CodeHashUses CodeSign CodeVerRound.
Import ListNotations.
Local Open Scope c_scope.

Section Verify.
Variable P : paramset.
Let T := numMPCRounds P.
Let dB := digestSizeBytes P.

(** picnic_impl.c:336-345 [setChallenge]. Pointer: 0 challenge. Index: 0 round. Data: 0 trit. *)
Definition setChallenge_body : stmt :=
  c_setBit (P0 0) (IMul (IC 2) (IV 0)) (DOp OAnd (DV 0) (DC 1)) ;;
  c_setBit (P0 0) (IAdd (IMul (IC 2) (IV 0)) (IC 1)) (DOp OAnd (DShr (DV 0) (IC 1)) (DC 1)).
Definition c_setChallenge (challenge : pexp) (round : iexp) (trit : dexp) : stmt := Call setChallenge_body [round] [trit] [PL [challenge]] [] [].
(** picnic_impl.c:347-352 [getChallenge]. Pointer: 0 challenge. Index: 0 round; 1 the result, which the callers use as an
    index and in comparisons. *)
Definition getChallenge_body : stmt :=
  c_getBit 0 (P0 0) (IAdd (IMul (IC 2) (IV 0)) (IC 1)) ;; c_getBit 1 (P0 0) (IMul (IC 2) (IV 0)) ;;
  ToI 1 (DCast 1 (DOp OOr (DShl (DV 0) (IC 1)) (DV 1))).
Definition c_getChallenge (x : nat) (challenge : pexp) (round : iexp) : stmt := Call getChallenge_body [round] [] [PL [challenge]] [(x, 1)] [].

(** picnic_impl.c:354-432 [H3]. Pointers as in c_H3_hash (10 hash), 0 KeccakRoundConstants, 11 challengeBits. Data: 0 byte, 1
    bitPair. Index: 3 bitPair (compared), 4 round, 5 whether "goto done" has been reached. *)
(** picnic_impl.c:409-418; the loop over [j] is written out, [js] are its values. *)
Definition c_pair (j : nat) : stmt :=
  DSet 1 (DCast 1 (DOp OAnd (DShr (DV 0) (IC (6 - j))) (DC 3))) ;;
  ToI 3 (DV 1) ;;
  If (CLt (IV 3) (IC 3))
    (c_setChallenge (P0 11) (IV 4) (DV 1) ;; ISet 4 (IAdd (IV 4) (IC 1)) ;; If (CEq (IV 4) (IC T)) (ISet 5 (IC 1)) Skip)
    Skip.
Fixpoint c_pairs (js : list nat) : stmt :=
  match js with [] => Skip | j :: r => c_pair j ;; If (CEq (IV 5) (IC 0)) (c_pairs r) Skip end.
(** picnic_impl.c:406-420. *)
Fixpoint c_scan (is_ : list nat) : stmt :=
  match is_ with
  | [] => Skip
  | i :: r => Ld 1 0 (PAdd (P0 10) (IC i)) ;; c_pairs [0; 2; 4; 6] ;; If (CEq (IV 5) (IC 0)) (c_scan r) Skip
  end.
(** picnic_impl.c:422-426. *)
Definition c_rehash : stmt := with_ctx (c_digest P HASH_PREFIX_1 [Buf 3 0 dB] 3 0 dB).
(** picnic_impl.c:405-427: at most [fuel] passes of while (1); index 5 tells whether that was enough. *)
Fixpoint c_expand (fuel : nat) : stmt :=
  match fuel with
  | O => Skip
  | S fuel' => c_scan (seq 0 dB) ;; If (CEq (IV 5) (IC 0)) (Call c_rehash [] [] [PA 0; PL []; PL []; PA 10] [] [] ;; c_expand fuel') Skip
  end.
Definition c_H3 (messageByteLength fuel : nat) : stmt :=
  Loc 10 (IC dB)
    (St 1 (PAdd (P0 11) (IC (numBytes (T * 2) - 1))) (DC 0) ;;
     Call (c_H3_hash P messageByteLength) [] [] [PA 0; PL []; PL []; PA 3; PA 4; PA 5; PA 6; PA 7; PA 8; PA 9; PA 10] [] [] ;;
     ISet 4 (IC 0) ;; ISet 5 (IC 0) ;;
     c_expand fuel).

(** The entries of round [i] in an array of [k] for each round. *)
Definition row (a k i : nat) : parg := PL (map (fun j => PV a (IC (k * i + j))) (seq 0 k)).
(** picnic_impl.c:618-702 [verify], after its allocations. Variables. Pointers as in CodeVerRound, but 1, 2, 3 and 10 have two
    entries for each round, 14 and 15 three, and 12, 16, 17 and 18 one; 19 view3Slab, 20 sig->challengeBits, 21 viewOutputs,
    22 message, 23 computed_challengebits. Index: 1 challenge, 2 whether H3 finished, 3 the result (1 is EXIT_SUCCESS). *)
(** picnic_impl.c:649-671: one iteration. *)
Definition c_round_call (i : nat) : stmt :=
  Call (c_verify_round P i) [IC 0; IV 1] []
    [PA 0; row 1 2 i; row 2 2 i; row 3 2 i; PA 4; PA 5; PA 6; PA 7; PA 8; PA 9; row 10 2 i; PA 11; row 12 1 i; PA 13; row 14 3 i;
     (if is_UR (transf P) then row 15 3 i else PL []); row 16 1 i; row 17 1 i; (if is_UR (transf P) then row 18 1 i else PL []);
     PL [PAdd (P0 19) (IC (i * stateSizeBytes P))]] [] [].
(** VIEW_OUTPUTS(i, j) for the three [j]; [l] are the pointers of view1s[i], view2s[i] and of the slab. *)
Definition c_outputs (i : nat) (l : list pexp) : stmt :=
  PSet 21 (map (fun j => PV 21 (IC j)) (seq 0 (3 * i)) ++ l).
Definition c_step (i : nat) : stmt :=
  let o1 := PV 3 (IC (2 * i)) in let o2 := PV 3 (IC (2 * i + 1)) in let o3 := PAdd (P0 19) (IC (i * stateSizeBytes P)) in
  c_getChallenge 1 (P0 20) (IC i) ;;
  c_round_call i ;;
  If (CEq (IV 1) (IC 0)) (c_outputs i [o1; o2; o3]) (If (CEq (IV 1) (IC 1)) (c_outputs i [o3; o1; o2]) (c_outputs i [o2; o3; o1])).
Fixpoint c_steps (is_ : list nat) : stmt := match is_ with [] => Skip | i :: r => c_step i ;; c_steps r end.
Definition c_verify (messageByteLength fuel : nat) : stmt :=
  c_steps (seq 0 T) ;;
  Loc 23 (IC (numBytes (2 * T)))
    (Call (c_H3 messageByteLength fuel) [] [] [PA 9; PL []; PL []; PA 21; PA 14; PA 15; PA 13; PA 4; PA 11; PA 22; PL []; PA 23] [(2, 5)] [] ;;
     If (CEq (IV 2) (IC 0)) Skip
       (c_memcmp 0 (P0 20) (P0 23) (IC (numBytes (2 * T))) ;; IfD (DV 0) (ISet 3 (IC 0)) (ISet 3 (IC 1)))).
End Verify.
