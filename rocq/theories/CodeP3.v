(** The multiparty computations of Picnic3 as in picnic3_impl.c, statement by statement, in the language of MiniC. A
    structure with pointers is passed as the pointers that the function uses ([randomTape_t]: the array of tapes;
    [msgs_t]: the array of messages; [shares_t]: its words); [tapes->pos] and [msgs->pos] are index variables that are
    copied back; [msgs->unopened + 1] is an index variable (0: no party). *)

From Coq Require Import List NArith Arith Bool.
From Verif Require Import Base Params MiniC CodeLowMC CodeZkb.
Import ListNotations.
Local Open Scope c_scope.

(** picnic3_impl.c:61-69 [parity16]. Data: 0 x, 1 y; result: 0. *)
Definition parity16_body : stmt :=
  DSet 1 (DCast 2 (dxor (DV 0) (DShr (DV 0) (IC 1)))) ;;
  DSet 1 (DCast 2 (dxor (DV 1) (DShr (DV 1) (IC 2)))) ;;
  DSet 1 (DCast 2 (dxor (DV 1) (DShr (DV 1) (IC 4)))) ;;
  DSet 1 (DCast 2 (dxor (DV 1) (DShr (DV 1) (IC 8)))) ;;
  DSet 0 (DCast 2 (dand (DV 1) (DC 1))).
Definition c_parity16 (x : nat) (e : dexp) : stmt := Call parity16_body [] [e] [] [] [(x, 0)].

(** picnic3_impl.c:90-100 [tapesToWord]. Pointers: 0 tapes (array), 1 shares. Index: 0 tapes->pos, 1 i. Data: 0 bit;
    result: 0. *)
Definition tapesToWord_body : stmt :=
  Loc 1 (IC 2) (* uint16_t shares *)
   (For 1 (IC 0) (IC 16) 1
      (c_getBit 0 (PV 0 (IV 1)) (IV 0) ;;
       c_setBit (P0 1) (IV 1) (DV 0)) ;;
    ISet 0 (IAdd (IV 0) (IC 1)) ;;
    Ld 2 0 (P0 1)).
Definition c_tapesToWord (x tapes pos : nat) : stmt := Call tapesToWord_body [IV pos] [] [PA tapes] [(pos, 0)] [(x, 0)].

(** picnic3_impl.c:107-112 [tapesToWords]. Pointers: 0 shares->shares, 1 tapes. Index: 0 shares->numWords, 1 tapes->pos, 2 w. *)
Definition tapesToWords_body : stmt :=
  For 2 (IC 0) (IV 0) 1
    (c_tapesToWord 0 1 1 ;;
     St 2 (elem 2 (P0 0) (IV 2)) (DV 0)).
Definition c_tapesToWords (shares : pexp) (numWords : iexp) (tapes pos : nat) : stmt :=
  Call tapesToWords_body [numWords; IV pos] [] [PL [shares]; PA tapes] [(pos, 1)] [].

(** picnic3_impl.c:114-119 [tapesToParityBits]. Pointers: 0 output, 1 tapes. Index: 0 outputBitLen, 1 tapes->pos, 2 i. *)
Definition tapesToParityBits_body : stmt :=
  For 2 (IC 0) (IV 0) 1
    (c_tapesToWord 0 1 1 ;;
     c_parity16 0 (DV 0) ;;
     c_setBit (P0 0) (IV 2) (DV 0)).
Definition c_tapesToParityBits (output : pexp) (outputBitLen : iexp) (tapes pos : nat) : stmt :=
  Call tapesToParityBits_body [outputBitLen; IV pos] [] [PL [output]; PA tapes] [(pos, 1)] [].

(** picnic3_impl.c:128-131 [extend]. *)
Definition d_extend (bit : dexp) : dexp := DCast 2 (DNot 4 (DSub (DCast 1 bit) (DC 1))).

Section S.
Variable P : paramset.
Let n := stateSizeBits P.
Let W := stateSizeWords P.
Let N := numMPCParties P.

(** picnic3_impl.c:133-140 [aux_mpc_AND]. Pointers: 0 tapes. Index: 0 tapes->pos. Data: 0 mask_a, 1 mask_b,
    2 fresh_output_mask, 3 and_helper, 4 a bit of the last tape, 5 aux_bit. *)
Definition aux_mpc_AND_body : stmt :=
  c_tapesToWord 3 0 0 ;;
  c_parity16 3 (DV 3) ;;
  c_getBit 4 (PV 0 (IC (N - 1))) (ISub (IV 0) (IC 1)) ;;
  DSet 3 (DCast 2 (dxor (DV 3) (DV 4))) ;;
  DSet 5 (DCast 1 (dxor (dxor (dand (DV 0) (DV 1)) (DV 3)) (DV 2))) ;;
  c_setBit (PV 0 (IC (N - 1))) (ISub (IV 0) (IC 1)) (DV 5).
Definition c_aux_mpc_AND (mask_a mask_b fresh : dexp) (tapes pos : nat) : stmt :=
  Call aux_mpc_AND_body [IV pos] [mask_a; mask_b; fresh] [PA tapes] [(pos, 0)] [].

(** picnic3_impl.c:142-161 [aux_mpc_sbox]. Pointers: 0 in, 1 out, 2 tapes. Index: 0 tapes->pos, 1 i. Data: 0-5 a-f,
    6 fresh_output_mask_ab, 7 fresh_output_mask_bc, 8 fresh_output_mask_ca. *)
Definition aux_mpc_sbox_body : stmt :=
  For 1 (IC 0) (IC (numSboxes P * 3)) 3
    (c_getBit 0 (P0 0) (IAdd (IV 1) (IC 2)) ;;
     c_getBit 1 (P0 0) (IAdd (IV 1) (IC 1)) ;;
     c_getBit 2 (P0 0) (IV 1) ;;
     c_getBit 3 (P0 1) (IAdd (IV 1) (IC 2)) ;;
     c_getBit 4 (P0 1) (IAdd (IV 1) (IC 1)) ;;
     c_getBit 5 (P0 1) (IV 1) ;;
     DSet 6 (DCast 1 (dxor (dxor (dxor (DV 5) (DV 0)) (DV 1)) (DV 2))) ;;
     DSet 7 (DCast 1 (dxor (DV 3) (DV 0))) ;;
     DSet 8 (DCast 1 (dxor (dxor (DV 4) (DV 0)) (DV 1))) ;;
     c_aux_mpc_AND (DV 0) (DV 1) (DV 6) 2 0 ;;
     c_aux_mpc_AND (DV 1) (DV 2) (DV 7) 2 0 ;;
     c_aux_mpc_AND (DV 2) (DV 0) (DV 8) 2 0).
Definition c_aux_mpc_sbox (inp out : pexp) (tapes pos : nat) : stmt :=
  Call aux_mpc_sbox_body [IV pos] [] [PL [inp]; PL [out]; PA tapes] [(pos, 0)] [].

(** picnic3_impl.c:168-209 [computeAuxTape]. Pointers: 0 tapes, 1 inputs, 2-4 the arrays of the matrices KMatrix(r),
    KMatrixInv(r), LMatrixInv(r) (lowmc_constants.h:27-33), 5 roundKey, 6 x, 7 y, 8 key, 9 key0. Index: 0 tapes->pos,
    1 whether [inputs != NULL] (0 if not), 3 r. The loop from r = numRounds down to 1 is one over index 2, numRounds - r. *)
Definition computeAuxTape_body : stmt :=
  Loc 5 (IC 64) (Loc 6 (IC 64) (Loc 7 (IC 64) (Loc 8 (IC 64) (Loc 9 (IC 64)
   (MemSet (P0 6) 0 (IC 64) ;;
    St 4 (elem 4 (P0 9) (IC (W - 1))) (DC 0) ;;
    c_tapesToParityBits (P0 9) (IC n) 0 0 ;;
    c_matrix_mul P (P0 8) (P0 9) (PV 3 (IC 0)) ;;
    If (CEq (IV 1) (IC 0)) Skip (MemCpy (P0 1) (P0 8) (IC (stateSizeBytes P))) ;;
    For 2 (IC 0) (IC (numRounds P)) 1
      (ISet 3 (ISub (IC (numRounds P)) (IV 2)) ;;
       c_matrix_mul P (P0 5) (P0 8) (PV 2 (IV 3)) ;;
       c_xor_array (P0 6) (P0 6) (P0 5) (IC W) ;;
       c_matrix_mul P (P0 7) (P0 6) (PV 4 (ISub (IV 3) (IC 1))) ;;
       If (CEq (IV 3) (IC 1))
         (MemCpy (P0 6) (P0 9) (IC (stateSizeBytes P)))
         (ISet 0 (IMul (IMul (IC n) (IC 2)) (ISub (IV 3) (IC 1))) ;;
          c_tapesToParityBits (P0 6) (IC n) 0 0) ;;
       ISet 0 (IAdd (IMul (IMul (IC n) (IC 2)) (ISub (IV 3) (IC 1))) (IC n)) ;;
       c_aux_mpc_sbox (P0 6) (P0 7) 0 0) ;;
    ISet 0 (IC 0)))))).
Definition c_computeAuxTape (tapes inputs : nat) (K KI LI pos : nat) (with_inputs : iexp) : stmt :=
  Call computeAuxTape_body [IV pos; with_inputs] [] [PA tapes; PA inputs; PA K; PA KI; PA LI] [(pos, 0)] [].

(** picnic3_impl.c:257-264 [wordToMsgs]. Pointers: 0 msgs->msgs (array), 1 the argument w, whose address is taken. Index:
    0 msgs->pos, 1 i. Data: 0 w, 1 w_i. *)
Definition wordToMsgs_body : stmt :=
  Loc 1 (IC 2)
   (St 2 (P0 1) (DV 0) ;;
    For 1 (IC 0) (IC N) 1
      (c_getBit 1 (P0 1) (IV 1) ;;
       c_setBit (PV 0 (IV 1)) (IV 0) (DV 1)) ;;
    ISet 0 (IAdd (IV 0) (IC 1))).
Definition c_wordToMsgs (w : dexp) (msgs pos : nat) : stmt := Call wordToMsgs_body [IV pos] [w] [PA msgs] [(pos, 0)] [].

(** picnic3_impl.c:266-279 [mpc_AND]. Pointers: 0 tapes, 1 msgs->msgs, 2 s_shares. Index: 0 tapes->pos, 1 msgs->pos,
    2 msgs->unopened + 1. Data: 0 a, 1 b, 2 mask_a, 3 mask_b, 4 and_helper, 5 unopenedPartyBit, 6 value of s_shares;
    result: 0. *)
Definition p3_mpc_AND_body : stmt :=
  c_tapesToWord 4 0 0 ;;
  Loc 2 (IC 2)
   (St 2 (P0 2) (dxor (dxor (dand (d_extend (DV 0)) (DV 3)) (dand (d_extend (DV 1)) (DV 2))) (DV 4)) ;;
    If (CLt (IC 0) (IV 2))
      (c_getBit 5 (PV 1 (ISub (IV 2) (IC 1))) (IV 1) ;;
       c_setBit (P0 2) (ISub (IV 2) (IC 1)) (DV 5))
      Skip ;;
    Ld 2 6 (P0 2) ;;
    c_wordToMsgs (DV 6) 1 1 ;;
    Ld 2 6 (P0 2) ;;
    c_parity16 6 (DV 6) ;;
    DSet 0 (DCast 1 (dxor (DV 6) (dand (DV 0) (DV 1))))).
Definition c_p3_mpc_AND (x : nat) (a b mask_a mask_b : dexp) (tapes msgs tpos mpos unopened : nat) : stmt :=
  Call p3_mpc_AND_body [IV tpos; IV mpos; IV unopened] [a; b; mask_a; mask_b] [PA tapes; PA msgs] [(tpos, 0); (mpos, 1)] [(x, 0)].

(** picnic3_impl.c:281-305 [mpc_sbox]. Pointers: 0 state, 1 state_masks->shares, 2 tapes, 3 msgs->msgs. Index: 0 tapes->pos,
    1 msgs->pos, 2 msgs->unopened + 1, 3 i. Data: 0 a, 1 mask_a, 2 b, 3 mask_b, 4 c, 5 mask_c, 6 ab, 7 bc, 8 ca, 9-11 d-f. *)
Definition p3_mpc_sbox_body : stmt :=
  For 3 (IC 0) (IC (numSboxes P * 3)) 3
    (c_getBit 0 (P0 0) (IAdd (IV 3) (IC 2)) ;;
     Ld 2 1 (elem 2 (P0 1) (IAdd (IV 3) (IC 2))) ;;
     c_getBit 2 (P0 0) (IAdd (IV 3) (IC 1)) ;;
     Ld 2 3 (elem 2 (P0 1) (IAdd (IV 3) (IC 1))) ;;
     c_getBit 4 (P0 0) (IV 3) ;;
     Ld 2 5 (elem 2 (P0 1) (IV 3)) ;;
     c_p3_mpc_AND 6 (DV 0) (DV 2) (DV 1) (DV 3) 2 3 0 1 2 ;;
     c_p3_mpc_AND 7 (DV 2) (DV 4) (DV 3) (DV 5) 2 3 0 1 2 ;;
     c_p3_mpc_AND 8 (DV 4) (DV 0) (DV 5) (DV 1) 2 3 0 1 2 ;;
     DSet 9 (DCast 1 (dxor (DV 0) (DV 7))) ;;
     DSet 10 (DCast 1 (dxor (dxor (DV 0) (DV 2)) (DV 8))) ;;
     DSet 11 (DCast 1 (dxor (dxor (dxor (DV 0) (DV 2)) (DV 4)) (DV 6))) ;;
     c_setBit (P0 0) (IAdd (IV 3) (IC 2)) (DV 9) ;;
     c_setBit (P0 0) (IAdd (IV 3) (IC 1)) (DV 10) ;;
     c_setBit (P0 0) (IV 3) (DV 11)).
Definition c_p3_mpc_sbox (st shares : pexp) (tapes msgs tpos mpos unopened : nat) : stmt :=
  Call p3_mpc_sbox_body [IV tpos; IV mpos; IV unopened] [] [PL [st]; PL [shares]; PA tapes; PA msgs] [(tpos, 0); (mpos, 1)] [].

(** [memcmp(a, b, len)], not 0 if there is a difference: reads all bytes, and shows every difference to the observer (the library function may
    stop at the first). Pointers: 0 a, 1 b. Index: 0 len, 1 i, 2 difference. Data: 2 result. *)
Definition memcmp_body : stmt :=
  DSet 2 (DC 0) ;;
  For 1 (IC 0) (IV 0) 1
    (Ld 1 0 (elem 1 (P0 0) (IV 1)) ;; Ld 1 1 (elem 1 (P0 1) (IV 1)) ;;
     ToI 2 (dxor (DV 0) (DV 1)) ;;
     DSet 2 (dor (DV 2) (dxor (DV 0) (DV 1)))).
Definition c_memcmp (x : nat) (a b : pexp) (len : iexp) : stmt := Call memcmp_body [len] [] [PL [a]; PL [b]] [] [(x, 2)].

(** picnic3_impl.c:383-414 [simulateOnline], up to the comparison with the public key. Pointers: 0 maskedKey, 1 tapes,
    2 tmp_shares->shares, 3 msgs->msgs, 4 plaintext, 5 pubKey, 6-8 the arrays of KMatrix(r), LMatrix(r), RConstant(r),
    9 roundKey, 10 state. Index: 0 tapes->pos, 1 msgs->pos, 2 msgs->unopened + 1, 3 r, 4 tmp_shares->numWords. *)
Definition simulate_rounds : stmt :=
  MemSet (P0 9) 0 (IC 64) ;;
  MemSet (P0 10) 0 (IC 64) ;;
  c_matrix_mul P (P0 9) (P0 0) (PV 6 (IC 0)) ;;
  c_xor_array (P0 10) (P0 9) (P0 4) (IC W) ;;
  For 3 (IC 1) (IC (numRounds P + 1)) 1
    (c_tapesToWords (P0 2) (IV 4) 1 0 ;;
     c_p3_mpc_sbox (P0 10) (P0 2) 1 3 0 1 2 ;;
     c_matrix_mul P (P0 10) (P0 10) (PV 7 (ISub (IV 3) (IC 1))) ;;
     c_xor_array (P0 10) (P0 10) (PV 8 (ISub (IV 3) (IC 1))) (IC W) ;;
     c_matrix_mul P (P0 9) (P0 0) (PV 6 (IV 3)) ;;
     c_xor_array (P0 10) (P0 9) (P0 10) (IC W)).
(** The whole function. Data: 0 result of memcmp, 1 ret (0, or the 32-bit pattern of -1). *)
Definition simulateOnline_body : stmt :=
  Loc 9 (IC 64) (Loc 10 (IC 64)
   (simulate_rounds ;;
    c_memcmp 0 (P0 10) (P0 5) (IC (stateSizeBytes P)) ;;
    IfD (DV 0) (DSet 1 (DC 4294967295)) (DSet 1 (DC 0)))).
Definition c_simulateOnline (x : nat) (maskedKey : pexp) (tapes shares msgs : nat) (plaintext pubKey : pexp) (K L C tpos mpos unopened numWords : nat) : stmt :=
  Call simulateOnline_body [IV tpos; IV mpos; IV unopened; IC 0; IV numWords] []
    [PL [maskedKey]; PA tapes; PA shares; PA msgs; PL [plaintext]; PL [pubKey]; PA K; PA L; PA C] [(tpos, 0); (mpos, 1)] [(x, 1)].

(** picnic3_impl.c:357-368 [getAuxBits]. Pointers: 0 output, 1 tapes. Index: 0 pos, 1 j, 2 i. *)
Definition getAuxBits_body : stmt :=
  ISet 0 (IC 0) ;;
  For 1 (IC 0) (IC (numRounds P)) 1
    (For 2 (IC 0) (IC n) 1
      (c_getBit 0 (PV 1 (IC (N - 1))) (IAdd (IAdd (IC n) (IMul (IMul (IC n) (IC 2)) (IV 1))) (IV 2)) ;;
       c_setBit (P0 0) (IV 0) (DV 0) ;;
       ISet 0 (IAdd (IV 0) (IC 1)))).
Definition c_getAuxBits (output : pexp) (tapes : nat) : stmt := Call getAuxBits_body [] [] [PL [output]; PA tapes] [] [].

(** picnic3_impl.c:370-381 [setAuxBits]. Pointers: 0 tapes, 1 input. Index: 0 pos, 1 j, 2 i. *)
Definition setAuxBits_body : stmt :=
  ISet 0 (IC 0) ;;
  For 1 (IC 0) (IC (numRounds P)) 1
    (For 2 (IC 0) (IC n) 1
      (c_getBit 0 (P0 1) (IV 0) ;;
       ISet 0 (IAdd (IV 0) (IC 1)) ;;
       c_setBit (PV 0 (IC (N - 1))) (IAdd (IAdd (IC n) (IMul (IMul (IC n) (IC 2)) (IV 1))) (IV 2)) (DV 0))).
Definition c_setAuxBits (tapes : nat) (input : pexp) : stmt := Call setAuxBits_body [] [] [PA tapes; PL [input]] [] [].
End S.
