(** LowMC as in picnic_impl.c, statement by statement, in the language of MiniC. The parameters are those of the C
    functions in their order: pointers are numbered 0, 1, ... among pointers, lengths among index
    variables, values among data variables; locals follow. Members of [params] are constants. *)

From Coq Require Import List NArith Arith Bool.
From Verif Require Import Base Params MiniC.
Import ListNotations.
Local Open Scope c_scope.

Definition dxor a b := DOp OXor a b.
Definition dand a b := DOp OAnd a b.
Definition dor a b := DOp OOr a b.
(** The pointer in variable [a]. *)
Definition P0 (a : nat) : pexp := PV a (IC 0).
(** &p[i] for elements of [w] bytes. *)
Definition elem (w : nat) (p : pexp) (i : iexp) : pexp := PAdd p (IMul (IC w) i).

(** picnic_impl.c:50-53 [getBit]; 56-59 [getBitFromWordArray] is the same on the same bytes. Result: data variable 0. *)
Definition getBit_body : stmt :=
  Ld 1 0 (elem 1 (P0 0) (IDiv (IV 0) (IC 8))) ;;
  DSet 0 (dand (DShr (DV 0) (ISub (IC 7) (IMod (IV 0) (IC 8)))) (DC 1)).
Definition c_getBit (x : nat) (array : pexp) (bitNumber : iexp) : stmt :=
  Call getBit_body [bitNumber] [] [PL [array]] [] [(x, 0)].

(** picnic_impl.c:62-66 [setBit], 69-72 [setBitInWordArray]. *)
Definition setBit_body : stmt :=
  Ld 1 1 (elem 1 (P0 0) (IDiv (IV 0) (IC 8))) ;;
  St 1 (elem 1 (P0 0) (IDiv (IV 0) (IC 8)))
     (dor (dand (DV 1) (DNot 4 (DShl (DC 1) (ISub (IC 7) (IMod (IV 0) (IC 8))))))
         (DShl (DV 0) (ISub (IC 7) (IMod (IV 0) (IC 8))))).
Definition c_setBit (array : pexp) (bitNumber : iexp) (val : dexp) : stmt :=
  Call setBit_body [bitNumber] [DCast 1 val] [PL [array]] [] [].

(** picnic_impl.c:107-112 [xor_array]; index variable 0: length, 1: i. *)
Definition xor_array_body : stmt :=
  For 1 (IC 0) (IV 0) 1
    (Ld 4 0 (elem 4 (P0 1) (IV 1)) ;; Ld 4 1 (elem 4 (P0 2) (IV 1)) ;;
     St 4 (elem 4 (P0 0) (IV 1)) (dxor (DV 0) (DV 1))).
Definition c_xor_array (out in1 in2 : pexp) (len : iexp) : stmt :=
  Call xor_array_body [len] [] [PL [out]; PL [in1]; PL [in2]] [] [].

(** picnic_impl.c:155-167 [parity32]; data variable 0: x, 1: y; result: 0. *)
Definition parity32_body : stmt :=
  DSet 1 (dxor (DV 0) (DShr (DV 0) (IC 1))) ;;
  DSet 1 (dxor (DV 1) (DShr (DV 1) (IC 2))) ;;
  DSet 1 (dxor (DV 1) (DShr (DV 1) (IC 4))) ;;
  DSet 1 (dxor (DV 1) (DShr (DV 1) (IC 8))) ;;
  DSet 1 (dxor (DV 1) (DShr (DV 1) (IC 16))) ;;
  DSet 0 (DCast 1 (dand (DV 1) (DC 1))).
Definition c_parity32 (x : nat) (e : dexp) : stmt := Call parity32_body [] [e] [] [] [(x, 0)].

Section S.
Variable P : paramset.
Let n := stateSizeBits P.
Let W := stateSizeWords P.

(** picnic_impl.c:169-196 [matrix_mul]. Pointers: 0 output, 1 state, 2 matrix, 3 temp. Index: 0 i, 1 j. Data: 0 prod. *)
Definition matrix_mul_body : stmt :=
  Loc 3 (IC 64) (* uint32_t temp[LOWMC_MAX_WORDS] *)
   (St 4 (elem 4 (P0 3) (IC (W - 1))) (DC 0) ;;
    For 0 (IC 0) (IC n) 1
      (DSet 0 (DC 0) ;;
       For 1 (IC 0) (IC (n / 32)) 1
         (Ld 4 1 (elem 4 (P0 1) (IV 1)) ;; Ld 4 2 (elem 4 (P0 2) (IAdd (IMul (IV 0) (IC W)) (IV 1))) ;;
          DSet 0 (dxor (DV 0) (dand (DV 1) (DV 2)))) ;;
       For 1 (IC (n / 32 * 32)) (IC n) 1
         (c_getBit 1 (P0 1) (IV 1) ;; c_getBit 2 (P0 2) (IAdd (IMul (IMul (IV 0) (IC W)) (IC 32)) (IV 1)) ;;
          DSet 3 (DCast 1 (dand (DV 1) (DV 2))) ;;
          DSet 0 (dxor (DV 0) (DV 3))) ;;
       c_parity32 1 (DV 0) ;;
       c_setBit (P0 3) (IV 0) (DV 1)) ;;
    MemCpy (P0 0) (P0 3) (IC (W * 4))).
Definition c_matrix_mul (output state matrix : pexp) : stmt :=
  Call matrix_mul_body [] [] [PL [output]; PL [state]; PL [matrix]] [] [].

(** picnic_impl.c:199-210 [substitution]. Index: 0 i. Data: 0 a, 1 b, 2 c. *)
Definition substitution_body : stmt :=
  For 0 (IC 0) (IC (numSboxes P * 3)) 3
    (c_getBit 0 (P0 0) (IAdd (IV 0) (IC 2)) ;;
     c_getBit 1 (P0 0) (IAdd (IV 0) (IC 1)) ;;
     c_getBit 2 (P0 0) (IV 0) ;;
     c_setBit (P0 0) (IAdd (IV 0) (IC 2)) (dxor (DV 0) (dand (DV 1) (DV 2))) ;;
     c_setBit (P0 0) (IAdd (IV 0) (IC 1)) (dxor (dxor (DV 0) (DV 1)) (dand (DV 0) (DV 2))) ;;
     c_setBit (P0 0) (IV 0) (dxor (dxor (dxor (DV 0) (DV 1)) (DV 2)) (dand (DV 0) (DV 1)))).
Definition c_substitution (st : pexp) : stmt := Call substitution_body [] [] [PL [st]] [] [].

(** picnic_impl.c:212-231 [LowMCEnc]. Pointers: 0 plaintext, 1 output, 2 key; 3, 4, 5: the arrays of the matrices
    KMatrix(r), LMatrix(r) and constants RConstant(r) (lowmc_constants.h:36-42); 6 roundKey. Index: 0 r. *)
Definition LowMCEnc_body : stmt :=
  Loc 6 (IC 64)
   (If (CPtr (P0 0) (P0 1)) Skip (MemCpy (P0 1) (P0 0) (IC (W * 4))) ;;
    c_matrix_mul (P0 6) (P0 2) (PV 3 (IC 0)) ;;
    c_xor_array (P0 1) (P0 1) (P0 6) (IC W) ;;
    For 0 (IC 1) (IC (numRounds P + 1)) 1
      (c_matrix_mul (P0 6) (P0 2) (PV 3 (IV 0)) ;;
       c_substitution (P0 1) ;;
       c_matrix_mul (P0 1) (P0 1) (PV 4 (ISub (IV 0) (IC 1))) ;;
       c_xor_array (P0 1) (P0 1) (PV 5 (ISub (IV 0) (IC 1))) (IC W) ;;
       c_xor_array (P0 1) (P0 1) (P0 6) (IC W))).
Definition c_LowMCEnc (plaintext output key : pexp) (K L C : nat) : stmt :=
  Call LowMCEnc_body [] [] [PL [plaintext]; PL [output]; PL [key]; PA K; PA L; PA C] [] [].
End S.
