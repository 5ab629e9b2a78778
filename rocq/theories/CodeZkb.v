(** The multiparty computations of ZKB++ as in picnic_impl.c, statement by statement, in the language of MiniC. A
    structure with pointers is passed as the pointers that the function uses; [rand->pos] is an index variable that
    is copied back. *)

From Coq Require Import List NArith Arith Bool.
From Verif Require Import Base Params MiniC CodeLowMC.
Import ListNotations.
Local Open Scope c_scope.

(** [uint8_t x[k]]: element [i] of the array in pointer variable [a]. *)
Definition byte_at (a : nat) (i : iexp) : pexp := elem 1 (P0 a) i.
Definition next3 (i : iexp) : iexp := IMod (IAdd i (IC 1)) (IC 3).

(** picnic_impl.c:113-130 [xor_three]. Pointers: 0 output, 1 in1, 2 in2, 3 in3. Index: 0 lenBytes, 1 wholeWords, 2 i. *)
Definition xor_three_body : stmt :=
  ISet 1 (IDiv (IV 0) (IC 4)) ;;
  For 2 (IC 0) (IV 1) 1
    (Ld 4 0 (elem 4 (P0 1) (IV 2)) ;; Ld 4 1 (elem 4 (P0 2) (IV 2)) ;; Ld 4 2 (elem 4 (P0 3) (IV 2)) ;;
     St 4 (elem 4 (P0 0) (IV 2)) (dxor (dxor (DV 0) (DV 1)) (DV 2))) ;;
  For 2 (IMul (IV 1) (IC 4)) (IV 0) 1
    (Ld 1 0 (byte_at 1 (IV 2)) ;; Ld 1 1 (byte_at 2 (IV 2)) ;; Ld 1 2 (byte_at 3 (IV 2)) ;;
     St 1 (byte_at 0 (IV 2)) (dxor (dxor (DV 0) (DV 1)) (DV 2))).
Definition c_xor_three (output in1 in2 in3 : pexp) (lenBytes : iexp) : stmt :=
  Call xor_three_body [lenBytes] [] [PL [output]; PL [in1]; PL [in2]; PL [in3]] [] [].

(** picnic_impl.c:263-268 [mpc_xor]. Pointer arrays: 0 state, 1 in. Index: 0 len, 1 players, 2 i. *)
Definition mpc_xor_body : stmt :=
  For 2 (IC 0) (IV 1) 1 (c_xor_array (PV 0 (IV 2)) (PV 0 (IV 2)) (PV 1 (IV 2)) (IV 0)).
Definition c_mpc_xor (state inp : nat) (len players : iexp) : stmt := Call mpc_xor_body [len; players] [] [PA state; PA inp] [] [].

(** picnic_impl.c:271-274 [mpc_xor_constant]. Pointers: 0 state (array), 1 in. Index: 0 len. *)
Definition mpc_xor_constant_body : stmt := c_xor_array (P0 0) (P0 0) (P0 1) (IV 0).
Definition c_mpc_xor_constant (state : nat) (inp : pexp) (len : iexp) : stmt := Call mpc_xor_constant_body [len] [] [PA state; PL [inp]] [] [].

(** picnic_impl.c:276-285 [mpc_xor_constant_verify]. Index: 0 len, 1 challenge. *)
Definition mpc_xor_constant_verify_body : stmt :=
  If (CEq (IV 1) (IC 0)) (c_xor_array (PV 0 (IC 0)) (PV 0 (IC 0)) (P0 1) (IV 0))
    (If (CEq (IV 1) (IC 2)) (c_xor_array (PV 0 (IC 1)) (PV 0 (IC 1)) (P0 1) (IV 0)) Skip).
Definition c_mpc_xor_constant_verify (state : nat) (inp : pexp) (len challenge : iexp) : stmt :=
  Call mpc_xor_constant_verify_body [len; challenge] [] [PA state; PL [inp]] [] [].

Section S.
Variable P : paramset.
Let W := stateSizeWords P.

(** picnic_impl.c:509-515 [mpc_matrix_mul]. Pointers: 0 output (array), 1 state (array), 2 matrix. Index: 0 players, 1 player. *)
Definition mpc_matrix_mul_body : stmt :=
  For 1 (IC 0) (IV 0) 1 (c_matrix_mul P (PV 0 (IV 1)) (PV 1 (IV 1)) (P0 2)).
Definition c_mpc_matrix_mul (output state : nat) (matrix : pexp) (players : iexp) : stmt :=
  Call mpc_matrix_mul_body [players] [] [PA output; PA state; PL [matrix]] [] [].

(** ** Signing *)

(** picnic_impl.c:706-719 [mpc_AND]. Pointers: 0 in1, 1 in2, 2 out, 3 rand->tape (array), 4 views[.].communicatedBits
    (array), 5 r. Index: 0 rand->pos, 1 i. *)
Definition mpc_AND_body : stmt :=
  Loc 5 (IC 3)
   (c_getBit 0 (PV 3 (IC 0)) (IV 0) ;; St 1 (byte_at 5 (IC 0)) (DV 0) ;;
    c_getBit 0 (PV 3 (IC 1)) (IV 0) ;; St 1 (byte_at 5 (IC 1)) (DV 0) ;;
    c_getBit 0 (PV 3 (IC 2)) (IV 0) ;; St 1 (byte_at 5 (IC 2)) (DV 0) ;;
    For 1 (IC 0) (IC 3) 1
      (Ld 1 0 (byte_at 0 (IV 1)) ;; Ld 1 1 (byte_at 1 (next3 (IV 1))) ;;
       Ld 1 2 (byte_at 0 (next3 (IV 1))) ;; Ld 1 3 (byte_at 1 (IV 1)) ;;
       Ld 1 4 (byte_at 5 (IV 1)) ;; Ld 1 5 (byte_at 5 (next3 (IV 1))) ;;
       St 1 (byte_at 2 (IV 1))
         (dxor (dxor (dxor (dxor (dand (DV 0) (DV 1)) (dand (DV 2) (DV 3))) (dand (DV 0) (DV 3))) (DV 4)) (DV 5)) ;;
       Ld 1 6 (byte_at 2 (IV 1)) ;;
       c_setBit (PV 4 (IV 1)) (IV 0) (DV 6)) ;;
    ISet 0 (IAdd (IV 0) (IC 1))).
Definition c_mpc_AND (in1 in2 out : pexp) (tape comm pos : nat) : stmt :=
  Call mpc_AND_body [IV pos] [] [PL [in1]; PL [in2]; PL [out]; PA tape; PA comm] [(pos, 0)] [].

(** picnic_impl.c:721-750 [mpc_substitution]. Pointers: 0 state, 1 rand->tape, 2 communicatedBits (arrays); 3 a, 4 b, 5 c,
    6 ab, 7 bc, 8 ca. Index: 0 rand->pos, 1 i, 2 j. *)
Definition mpc_substitution_body : stmt :=
  Loc 3 (IC 3) (Loc 4 (IC 3) (Loc 5 (IC 3) (Loc 6 (IC 3) (Loc 7 (IC 3) (Loc 8 (IC 3)
   (For 1 (IC 0) (IC (numSboxes P * 3)) 3
     (For 2 (IC 0) (IC 3) 1
        (c_getBit 0 (PV 0 (IV 2)) (IAdd (IV 1) (IC 2)) ;; St 1 (byte_at 3 (IV 2)) (DV 0) ;;
         c_getBit 0 (PV 0 (IV 2)) (IAdd (IV 1) (IC 1)) ;; St 1 (byte_at 4 (IV 2)) (DV 0) ;;
         c_getBit 0 (PV 0 (IV 2)) (IV 1) ;; St 1 (byte_at 5 (IV 2)) (DV 0)) ;;
      c_mpc_AND (P0 3) (P0 4) (P0 6) 1 2 0 ;;
      c_mpc_AND (P0 4) (P0 5) (P0 7) 1 2 0 ;;
      c_mpc_AND (P0 5) (P0 3) (P0 8) 1 2 0 ;;
      For 2 (IC 0) (IC 3) 1
        (Ld 1 0 (byte_at 3 (IV 2)) ;; Ld 1 1 (byte_at 7 (IV 2)) ;;
         c_setBit (PV 0 (IV 2)) (IAdd (IV 1) (IC 2)) (dxor (DV 0) (DV 1)) ;;
         Ld 1 0 (byte_at 3 (IV 2)) ;; Ld 1 1 (byte_at 4 (IV 2)) ;; Ld 1 2 (byte_at 8 (IV 2)) ;;
         c_setBit (PV 0 (IV 2)) (IAdd (IV 1) (IC 1)) (dxor (dxor (DV 0) (DV 1)) (DV 2)) ;;
         Ld 1 0 (byte_at 3 (IV 2)) ;; Ld 1 1 (byte_at 4 (IV 2)) ;; Ld 1 2 (byte_at 5 (IV 2)) ;; Ld 1 3 (byte_at 6 (IV 2)) ;;
         c_setBit (PV 0 (IV 2)) (IV 1) (dxor (dxor (dxor (DV 0) (DV 1)) (DV 2)) (DV 3)))))))))).
Definition c_mpc_substitution (state tape comm pos : nat) : stmt :=
  Call mpc_substitution_body [IV pos] [] [PA state; PA tape; PA comm] [(pos, 0)] [].

(** picnic_impl.c:767-800 [mpc_LowMC]. Pointers: arrays 0 tapes->tape, 1 views[.].inputShare, 2 views[.].communicatedBits,
    3 views[.].outputShare; 4 plaintext, 5 slab; arrays 6, 7, 8: KMatrix(r), LMatrix(r), RConstant(r); 9 keyShares,
    10 state, 11 roundKey. Index: 0 tapes->pos, 1 r or i. *)
Definition mpc_LowMC_body : stmt :=
  MemSet (P0 5) 0 (IC (6 * W * 4)) ;;
  PSet 11 [P0 5; PAdd (P0 5) (IC (4 * W)); PAdd (PAdd (P0 5) (IC (4 * W))) (IC (4 * W))] ;;
  PSet 10 [PAdd (PV 11 (IC 2)) (IC (4 * W)); PAdd (PAdd (PV 11 (IC 2)) (IC (4 * W))) (IC (4 * W));
           PAdd (PAdd (PAdd (PV 11 (IC 2)) (IC (4 * W))) (IC (4 * W))) (IC (4 * W))] ;;
  PSet 9 [PV 1 (IC 0); PV 1 (IC 1); PV 1 (IC 2)] ;;
  c_mpc_xor_constant 10 (P0 4) (IC W) ;;
  c_mpc_matrix_mul 11 9 (PV 6 (IC 0)) (IC 3) ;;
  c_mpc_xor 10 11 (IC W) (IC 3) ;;
  For 1 (IC 1) (IC (numRounds P + 1)) 1
    (c_mpc_matrix_mul 11 9 (PV 6 (IV 1)) (IC 3) ;;
     c_mpc_substitution 10 0 2 0 ;;
     c_mpc_matrix_mul 10 10 (PV 7 (ISub (IV 1) (IC 1))) (IC 3) ;;
     c_mpc_xor_constant 10 (PV 8 (ISub (IV 1) (IC 1))) (IC W) ;;
     c_mpc_xor 10 11 (IC W) (IC 3)) ;;
  For 1 (IC 0) (IC 3) 1 (MemCpy (PV 3 (IV 1)) (PV 10 (IV 1)) (IC (stateSizeBytes P))).
Definition c_mpc_LowMC (tape inputShare communicatedBits outputShare : nat) (plaintext slab : pexp) (K L C pos : nat) : stmt :=
  Call mpc_LowMC_body [IV pos] [] [PA tape; PA inputShare; PA communicatedBits; PA outputShare; PL [plaintext]; PL [slab]; PA K; PA L; PA C] [(pos, 0)] [].

(** ** Verification *)

(** picnic_impl.c:466-476 [mpc_AND_verify]. Pointers: 0 in1, 1 in2, 2 out, 3 rand->tape (array), 4, 5
    communicatedBits of view1, view2; 6 r. Index: 0 rand->pos. *)
Definition mpc_AND_verify_body : stmt :=
  Loc 6 (IC 2)
   (c_getBit 0 (PV 3 (IC 0)) (IV 0) ;; St 1 (byte_at 6 (IC 0)) (DV 0) ;;
    c_getBit 0 (PV 3 (IC 1)) (IV 0) ;; St 1 (byte_at 6 (IC 1)) (DV 0) ;;
    Ld 1 0 (byte_at 0 (IC 0)) ;; Ld 1 1 (byte_at 1 (IC 1)) ;; Ld 1 2 (byte_at 0 (IC 1)) ;; Ld 1 3 (byte_at 1 (IC 0)) ;;
    Ld 1 4 (byte_at 6 (IC 0)) ;; Ld 1 5 (byte_at 6 (IC 1)) ;;
    St 1 (byte_at 2 (IC 0))
      (dxor (dxor (dxor (dxor (dand (DV 0) (DV 1)) (dand (DV 2) (DV 3))) (dand (DV 0) (DV 3))) (DV 4)) (DV 5)) ;;
    Ld 1 6 (byte_at 2 (IC 0)) ;;
    c_setBit (P0 4) (IV 0) (DV 6) ;;
    c_getBit 0 (P0 5) (IV 0) ;; St 1 (byte_at 2 (IC 1)) (DV 0) ;;
    ISet 0 (IAdd (IV 0) (IC 1))).
Definition c_mpc_AND_verify (in1 in2 out : pexp) (tape : nat) (comm1 comm2 : pexp) (pos : nat) : stmt :=
  Call mpc_AND_verify_body [IV pos] [] [PL [in1]; PL [in2]; PL [out]; PA tape; PL [comm1]; PL [comm2]] [(pos, 0)] [].

(** picnic_impl.c:478-507 [mpc_substitution_verify]. Pointers: 0 state, 1 rand->tape (arrays), 2, 3
    communicatedBits of view1, view2; 4 a, 5 b, 6 c, 7 ab, 8 bc, 9 ca. Index: 0 rand->pos, 1 i, 2 j. *)
Definition mpc_substitution_verify_body : stmt :=
  For 1 (IC 0) (IC (numSboxes P * 3)) 3
   (Loc 4 (IC 2) (Loc 5 (IC 2) (Loc 6 (IC 2)
     (For 2 (IC 0) (IC 2) 1
        (c_getBit 0 (PV 0 (IV 2)) (IAdd (IV 1) (IC 2)) ;; St 1 (byte_at 4 (IV 2)) (DV 0) ;;
         c_getBit 0 (PV 0 (IV 2)) (IAdd (IV 1) (IC 1)) ;; St 1 (byte_at 5 (IV 2)) (DV 0) ;;
         c_getBit 0 (PV 0 (IV 2)) (IV 1) ;; St 1 (byte_at 6 (IV 2)) (DV 0)) ;;
      Loc 7 (IC 2) (Loc 8 (IC 2) (Loc 9 (IC 2)
       (c_mpc_AND_verify (P0 4) (P0 5) (P0 7) 1 (P0 2) (P0 3) 0 ;;
        c_mpc_AND_verify (P0 5) (P0 6) (P0 8) 1 (P0 2) (P0 3) 0 ;;
        c_mpc_AND_verify (P0 6) (P0 4) (P0 9) 1 (P0 2) (P0 3) 0 ;;
        For 2 (IC 0) (IC 2) 1
          (Ld 1 0 (byte_at 4 (IV 2)) ;; Ld 1 1 (byte_at 8 (IV 2)) ;;
           c_setBit (PV 0 (IV 2)) (IAdd (IV 1) (IC 2)) (dxor (DV 0) (DV 1)) ;;
           Ld 1 0 (byte_at 4 (IV 2)) ;; Ld 1 1 (byte_at 5 (IV 2)) ;; Ld 1 2 (byte_at 9 (IV 2)) ;;
           c_setBit (PV 0 (IV 2)) (IAdd (IV 1) (IC 1)) (dxor (dxor (DV 0) (DV 1)) (DV 2)) ;;
           Ld 1 0 (byte_at 4 (IV 2)) ;; Ld 1 1 (byte_at 5 (IV 2)) ;; Ld 1 2 (byte_at 6 (IV 2)) ;; Ld 1 3 (byte_at 7 (IV 2)) ;;
           c_setBit (PV 0 (IV 2)) (IV 1) (dxor (dxor (dxor (DV 0) (DV 1)) (DV 2)) (DV 3)))))))))).
Definition c_mpc_substitution_verify (state tape : nat) (comm1 comm2 : pexp) (pos : nat) : stmt :=
  Call mpc_substitution_verify_body [IV pos] [] [PA state; PA tape; PL [comm1]; PL [comm2]] [(pos, 0)] [].

(** picnic_impl.c:517-549 [mpc_LowMC_verify]. Pointers: arrays 0 tapes->tape; 1 inputShare, 2 communicatedBits,
    3 outputShare of view1 and view2 (arrays); 4 plaintext, 5 tmp; arrays 6, 7, 8: constants; 9 keyShares, 10 state,
    11 roundKey. Index: 0 tapes->pos, 1 r, 2 challenge. *)
Definition mpc_LowMC_verify_body : stmt :=
  MemSet (P0 5) 0 (IC (4 * W * 4)) ;;
  PSet 11 [P0 5; PAdd (P0 5) (IC (4 * W))] ;;
  PSet 10 [PAdd (PV 11 (IC 1)) (IC (4 * W)); PAdd (PAdd (PV 11 (IC 1)) (IC (4 * W))) (IC (4 * W))] ;;
  c_mpc_xor_constant_verify 10 (P0 4) (IC W) (IV 2) ;;
  PSet 9 [PV 1 (IC 0); PV 1 (IC 1)] ;;
  c_mpc_matrix_mul 11 9 (PV 6 (IC 0)) (IC 2) ;;
  c_mpc_xor 10 11 (IC W) (IC 2) ;;
  For 1 (IC 1) (IC (numRounds P + 1)) 1
    (c_mpc_matrix_mul 11 9 (PV 6 (IV 1)) (IC 2) ;;
     c_mpc_substitution_verify 10 0 (PV 2 (IC 0)) (PV 2 (IC 1)) 0 ;;
     c_mpc_matrix_mul 10 10 (PV 7 (ISub (IV 1) (IC 1))) (IC 2) ;;
     c_mpc_xor_constant_verify 10 (PV 8 (ISub (IV 1) (IC 1))) (IC W) (IV 2) ;;
     c_mpc_xor 10 11 (IC W) (IC 2)) ;;
  MemCpy (PV 3 (IC 0)) (PV 10 (IC 0)) (IC (stateSizeBytes P)) ;;
  MemCpy (PV 3 (IC 1)) (PV 10 (IC 1)) (IC (stateSizeBytes P)).
Definition c_mpc_LowMC_verify (tape inputShare communicatedBits outputShare : nat) (plaintext tmp : pexp) (K L C pos : nat) (challenge : iexp) : stmt :=
  Call mpc_LowMC_verify_body [IV pos; IC 0; challenge] [] [PA tape; PA inputShare; PA communicatedBits; PA outputShare; PL [plaintext]; PL [tmp]; PA K; PA L; PA C] [(pos, 0)] [].
End S.
