(** The Keccak permutation as in sha3/KeccakP-1600-reference.c, statement by statement, in the language of MiniC
    (little-endian platform, [KeccakReference] not defined). Pointer 0 is the state, an array of 25 lanes. *)

From Coq Require Import List NArith Arith Bool.
From Verif Require Import Base MiniC CodeLowMC Keccak.
Import ListNotations.
Local Open Scope c_scope.

(** KeccakP-1600-reference.c:31 [index]. *)
Definition i_index (x y : iexp) : iexp := IAdd (IMod x (IC 5)) (IMul (IC 5) (IMod y (IC 5))).
(** &p[i] for an array of lanes in pointer variable [p]. *)
Definition lane (p : nat) (i : iexp) : pexp := elem 8 (P0 p) i.
(** Line 316 [ROL64] for an offset that is not 0. *)
Definition d_rol (a : dexp) (offset : iexp) : dexp := dxor (DShlL a offset) (DShr a (ISub (IC 64) offset)).

(** Lines 318-333 [theta]. Pointers: 0 A, 1 C, 2 D. Index: 0 x, 1 y. *)
Definition theta_body : stmt :=
  Loc 1 (IC 40) (Loc 2 (IC 40)
   (For 0 (IC 0) (IC 5) 1
      (St 8 (lane 1 (IV 0)) (DC 0) ;;
       For 1 (IC 0) (IC 5) 1
         (Ld 8 0 (lane 1 (IV 0)) ;; Ld 8 1 (lane 0 (i_index (IV 0) (IV 1))) ;;
          St 8 (lane 1 (IV 0)) (dxor (DV 0) (DV 1)))) ;;
    For 0 (IC 0) (IC 5) 1
      (Ld 8 0 (lane 1 (IMod (IAdd (IV 0) (IC 1)) (IC 5))) ;; Ld 8 1 (lane 1 (IMod (IAdd (IV 0) (IC 4)) (IC 5))) ;;
       St 8 (lane 2 (IV 0)) (dxor (d_rol (DV 0) (IC 1)) (DV 1))) ;;
    For 0 (IC 0) (IC 5) 1
      (For 1 (IC 0) (IC 5) 1
         (Ld 8 0 (lane 0 (i_index (IV 0) (IV 1))) ;; Ld 8 1 (lane 2 (IV 0)) ;;
          St 8 (lane 0 (i_index (IV 0) (IV 1))) (dxor (DV 0) (DV 1)))))).
Definition c_theta (A : pexp) : stmt := Call theta_body [] [] [PL [A]] [] [].

(** Lines 335-341 [rho]. The loops over x and y are unrolled, since the offsets of line 126 are constants. *)
Definition rho_step (k : nat) : stmt :=
  let o := nth k KeccakRhoOffsets 0 in
  Ld 8 0 (lane 0 (IC k)) ;;
  If (CEq (IC o) (IC 0)) Skip (DSet 0 (d_rol (DV 0) (IC o))) ;;
  St 8 (lane 0 (IC k)) (DV 0).
Definition rho_body : stmt :=
  fold_right (fun k s => Seq (rho_step k) s) Skip (flat_map (fun x => map (fun y => index x y) (seq 0 5)) (seq 0 5)).
Definition c_rho (A : pexp) : stmt := Call rho_body [] [] [PL [A]] [] [].

(** Lines 343-352 [pi]. Pointers: 0 A, 1 tempA. Index: 0 x, 1 y. *)
Definition pi_body : stmt :=
  Loc 1 (IC 200)
   (For 0 (IC 0) (IC 5) 1
      (For 1 (IC 0) (IC 5) 1
         (Ld 8 0 (lane 0 (i_index (IV 0) (IV 1))) ;; St 8 (lane 1 (i_index (IV 0) (IV 1))) (DV 0))) ;;
    For 0 (IC 0) (IC 5) 1
      (For 1 (IC 0) (IC 5) 1
         (Ld 8 0 (lane 1 (i_index (IV 0) (IV 1))) ;;
          St 8 (lane 0 (i_index (IAdd (IMul (IC 0) (IV 0)) (IMul (IC 1) (IV 1))) (IAdd (IMul (IC 2) (IV 0)) (IMul (IC 3) (IV 1))))) (DV 0)))).
Definition c_pi (A : pexp) : stmt := Call pi_body [] [] [PL [A]] [] [].

(** Lines 354-365 [chi]. Pointers: 0 A, 1 C. Index: 0 x, 1 y. *)
Definition chi_body : stmt :=
  Loc 1 (IC 40)
   (For 1 (IC 0) (IC 5) 1
     (For 0 (IC 0) (IC 5) 1
        (Ld 8 0 (lane 0 (i_index (IV 0) (IV 1))) ;; Ld 8 1 (lane 0 (i_index (IAdd (IV 0) (IC 1)) (IV 1))) ;;
         Ld 8 2 (lane 0 (i_index (IAdd (IV 0) (IC 2)) (IV 1))) ;;
         St 8 (lane 1 (IV 0)) (dxor (DV 0) (dand (DNot 8 (DV 1)) (DV 2)))) ;;
      For 0 (IC 0) (IC 5) 1
        (Ld 8 0 (lane 1 (IV 0)) ;; St 8 (lane 0 (i_index (IV 0) (IV 1))) (DV 0)))).
Definition c_chi (A : pexp) : stmt := Call chi_body [] [] [PL [A]] [] [].

(** Lines 367-370 [iota]. Pointers: 0 A, 1 KeccakRoundConstants. Index: 0 indexRound. *)
Definition iota_body : stmt :=
  Ld 8 0 (lane 0 (i_index (IC 0) (IC 0))) ;; Ld 8 1 (lane 1 (IV 0)) ;;
  St 8 (lane 0 (i_index (IC 0) (IC 0))) (dxor (DV 0) (DV 1)).
Definition c_iota (A : pexp) (RC : nat) (indexRound : iexp) : stmt := Call iota_body [indexRound] [] [PL [A]; PA RC] [] [].

(** Lines 284-314 [KeccakP1600Round]. Pointers: 0 state, 1 KeccakRoundConstants. Index: 0 indexRound. *)
Definition KeccakP1600Round_body : stmt :=
  c_theta (P0 0) ;; c_rho (P0 0) ;; c_pi (P0 0) ;; c_chi (P0 0) ;; c_iota (P0 0) 1 (IV 0).
Definition c_KeccakP1600Round (A : pexp) (RC : nat) (indexRound : iexp) : stmt :=
  Call KeccakP1600Round_body [indexRound] [] [PL [A]; PA RC] [] [].

(** Lines 272-282 [KeccakP1600OnWords]. Pointers: 0 state, 1 KeccakRoundConstants. Index: 0 nrRounds, 1 i. *)
Definition KeccakP1600OnWords_body : stmt :=
  For 1 (ISub (IC 24) (IV 0)) (IC 24) 1 (c_KeccakP1600Round (P0 0) 1 (IV 1)).
Definition c_KeccakP1600OnWords (A : pexp) (RC : nat) (nrRounds : iexp) : stmt :=
  Call KeccakP1600OnWords_body [nrRounds] [] [PL [A]; PA RC] [] [].

(** Lines 231-250 [KeccakP1600_Permute_24rounds]. *)
Definition Permute_body : stmt := c_KeccakP1600OnWords (P0 0) 1 (IC 24).
Definition c_Permute (A : pexp) (RC : nat) : stmt := Call Permute_body [] [] [PL [A]; PA RC] [] [].

(** Lines 142-146 [KeccakP1600_AddByte]. Data: 0 byte. Index: 0 offset. The asserts of this file are left out (they hold
    whenever the accesses are inside the state). *)
Definition AddByte_body : stmt :=
  Ld 1 1 (PAdd (P0 0) (IV 0)) ;; St 1 (PAdd (P0 0) (IV 0)) (dxor (DV 1) (DV 0)).
Definition c_AddByte (A : pexp) (b : dexp) (offset : iexp) : stmt := Call AddByte_body [offset] [b] [PL [A]] [] [].

(** Lines 150-158 [KeccakP1600_AddBytes]. Pointers: 0 state, 1 data. Index: 0 offset, 1 length, 2 i. *)
Definition AddBytes_body : stmt :=
  For 2 (IC 0) (IV 1) 1
    (Ld 1 0 (PAdd (P0 0) (IAdd (IV 0) (IV 2))) ;; Ld 1 1 (PAdd (P0 1) (IV 2)) ;;
     St 1 (PAdd (P0 0) (IAdd (IV 0) (IV 2))) (dxor (DV 0) (DV 1))).
Definition c_AddBytes (A D : pexp) (offset length : iexp) : stmt := Call AddBytes_body [offset; length] [] [PL [A]; PL [D]] [] [].

(** Lines 374-379 [KeccakP1600_ExtractBytes]. Pointers: 0 state, 1 data. Index: 0 offset, 1 length. *)
Definition ExtractBytes_body : stmt := MemCpy (P0 1) (PAdd (P0 0) (IV 0)) (IV 1).
Definition c_ExtractBytes (A D : pexp) (offset length : iexp) : stmt := Call ExtractBytes_body [offset; length] [] [PL [A]; PL [D]] [] [].

(** ** KeccakSponge.inc

    The integers of an instance (rate, byteIOIndex, squeezing) are index variables of the caller, not part of its memory;
    the state is in memory. A function gets the integers as its index variables 0, 1, 2 and returns the new values and its
    return code (index 8). Index 7: rateInBytes. Sizes and positions are exact, so that the statements are about
    inputs shorter than 2^32 - 200 bytes. *)

(** Lines 133-146 [SpongeInitialize]. Pointer 0 state. Index: 3 rate, 4 capacity. *)
Definition SpongeInitialize_body : stmt :=
  If (CEq (IAdd (IV 3) (IV 4)) (IC 1600))
    (If (CEq (IV 3) (IC 0)) (ISet 8 (IC 1))
      (If (CLt (IC 1600) (IV 3)) (ISet 8 (IC 1))
        (If (CEq (IMod (IV 3) (IC 8)) (IC 0))
           (MemSet (P0 0) 0 (IC 200) ;; ISet 0 (IV 3) ;; ISet 1 (IC 0) ;; ISet 2 (IC 0) ;; ISet 8 (IC 0))
           (ISet 8 (IC 1)))))
    (ISet 8 (IC 1)).

(** Lines 174-181, whole blocks. Pointers: 0 state, 2 KeccakRoundConstants, 3 curData. Index: 3 dataByteLen, 4 i, 5 j. *)
Definition absorb_blocks : stmt :=
  ISet 5 (ISub (IV 3) (IV 4)) ;;
  For 10 (IC 0) (IDiv (IV 5) (IV 7)) 1
    (c_AddBytes (P0 0) (P0 3) (IC 0) (IV 7) ;; c_Permute (P0 0) 2 ;; PSet 3 [PAdd (P0 3) (IV 7)] ;; ISet 5 (ISub (IV 5) (IV 7))) ;;
  ISet 4 (ISub (IV 3) (IV 5)).
(** Lines 188-203, part of a block. Index: 6 partialBlock. *)
Definition absorb_part : stmt :=
  ISet 6 (ISub (IV 3) (IV 4)) ;;
  If (CLt (IV 7) (IAdd (IV 6) (IV 1))) (ISet 6 (ISub (IV 7) (IV 1))) Skip ;;
  ISet 4 (IAdd (IV 4) (IV 6)) ;;
  c_AddBytes (P0 0) (P0 3) (IV 1) (IV 6) ;;
  PSet 3 [PAdd (P0 3) (IV 6)] ;;
  ISet 1 (IAdd (IV 1) (IV 6)) ;;
  If (CEq (IV 1) (IV 7)) (c_Permute (P0 0) 2 ;; ISet 1 (IC 0)) Skip.
Definition absorb_step : stmt :=
  If (CEq (IV 1) (IC 0)) (If (CLt (IV 3) (IAdd (IV 4) (IV 7))) absorb_part absorb_blocks) absorb_part.
(** Lines 150-207 [SpongeAbsorb]. Pointers: 0 state, 1 data, 2 KeccakRoundConstants, 3 curData. Index: 3 dataByteLen. The
    while loop runs at most dataByteLen times, since every iteration takes at least one byte: a loop of dataByteLen
    rounds that tests the condition in each. *)
Definition SpongeAbsorb_body : stmt :=
  ISet 7 (IDiv (IV 0) (IC 8)) ;;
  If (CEq (IV 2) (IC 0))
    (ISet 4 (IC 0) ;; PSet 3 [P0 1] ;;
     For 9 (IC 0) (IV 3) 1 (If (CLt (IV 4) (IV 3)) absorb_step Skip) ;;
     ISet 8 (IC 0))
    (ISet 8 (IC 1)).

(** Lines 211-249 [SpongeAbsorbLastFewBits]. Pointers: 0 state, 1 KeccakRoundConstants. The argument delimitedData is a
    constant at both calls. *)
Definition LastFewBits_body (delimitedData : nat) : stmt :=
  ISet 7 (IDiv (IV 0) (IC 8)) ;;
  If (CEq (IC delimitedData) (IC 0)) (ISet 8 (IC 1))
    (If (CEq (IV 2) (IC 0))
       (c_AddByte (P0 0) (DC (N.of_nat delimitedData)) (IV 1) ;;
        If (CLt (IC delimitedData) (IC 128)) Skip (If (CEq (IV 1) (ISub (IV 7) (IC 1))) (c_Permute (P0 0) 1) Skip) ;;
        c_AddByte (P0 0) (DC 128) (ISub (IV 7) (IC 1)) ;;
        c_Permute (P0 0) 1 ;;
        ISet 1 (IC 0) ;; ISet 2 (IC 1) ;; ISet 8 (IC 0))
       (ISet 8 (IC 1))).

(** Lines 267-275, whole blocks. *)
Definition squeeze_blocks : stmt :=
  ISet 5 (ISub (IV 3) (IV 4)) ;;
  For 10 (IC 0) (IDiv (IV 5) (IV 7)) 1
    (c_Permute (P0 0) 2 ;; c_ExtractBytes (P0 0) (P0 3) (IC 0) (IV 7) ;; PSet 3 [PAdd (P0 3) (IV 7)] ;; ISet 5 (ISub (IV 5) (IV 7))) ;;
  ISet 4 (ISub (IV 3) (IV 5)).
(** Lines 277-294, part of a block. *)
Definition squeeze_part : stmt :=
  If (CEq (IV 1) (IV 7)) (c_Permute (P0 0) 2 ;; ISet 1 (IC 0)) Skip ;;
  ISet 6 (ISub (IV 3) (IV 4)) ;;
  If (CLt (IV 7) (IAdd (IV 6) (IV 1))) (ISet 6 (ISub (IV 7) (IV 1))) Skip ;;
  ISet 4 (IAdd (IV 4) (IV 6)) ;;
  c_ExtractBytes (P0 0) (P0 3) (IV 1) (IV 6) ;;
  PSet 3 [PAdd (P0 3) (IV 6)] ;;
  ISet 1 (IAdd (IV 1) (IV 6)).
Definition squeeze_step : stmt :=
  If (CEq (IV 1) (IV 7)) (If (CLt (IV 3) (IAdd (IV 4) (IV 7))) squeeze_part squeeze_blocks) squeeze_part.
(** Lines 253-297 [SpongeSqueeze]. As SpongeAbsorb. *)
Definition SpongeSqueeze_body : stmt :=
  ISet 7 (IDiv (IV 0) (IC 8)) ;;
  If (CEq (IV 2) (IC 0)) (Call (LastFewBits_body 1) [IV 0; IV 1; IV 2] [] [PL [P0 0]; PA 2] [(1, 1); (2, 2)] []) Skip ;;
  ISet 4 (IC 0) ;; PSet 3 [P0 1] ;;
  For 9 (IC 0) (IV 3) 1 (If (CLt (IV 4) (IV 3)) squeeze_step Skip) ;;
  ISet 8 (IC 0).

(** ** KeccakHash.c and hash.c

    A context: pointer variable [A] to the state, index variables 0, 1, 2 of the caller for the integers, 8 for the return
    code of the last call. delimitedSuffix is the constant 0x1F of the two initialisations; only a number of bits that
    is not a multiple of 8 would change it (KeccakHash.c:42-58, never reached through hash.c). fixedOutputLength is 0.
    [RC]: pointer variable for KeccakRoundConstants. *)

(** KeccakHash.c:21-33 [Keccak_HashInitialize]. *)
Definition c_HashInitialize (A : pexp) (rate capacity : nat) : stmt :=
  Call SpongeInitialize_body [IV 0; IV 1; IV 2; IC rate; IC capacity] [] [PL [A]] [(0, 0); (1, 1); (2, 2); (8, 8)] [].
(** The error messages of hash.c:25-28, 49-51, 59-61: variable 11 of the caller becomes 1. *)
Definition c_report : stmt := If (CEq (IV 8) (IC 0)) Skip (ISet 11 (IC 1)).
(** hash.c:21-29 [HashUpdate] and KeccakHash.c:37-40 [Keccak_HashUpdate]: byteLen * 8 bits, a multiple of 8. *)
Definition c_HashUpdate (A D : pexp) (RC : nat) (byteLen : iexp) : stmt :=
  Call SpongeAbsorb_body [IV 0; IV 1; IV 2; IDiv (IMul byteLen (IC 8)) (IC 8)] [] [PL [A]; PL [D]; PA RC] [(1, 1); (8, 8)] [] ;; c_report.
(** hash.c:31-43 [HashInit]; [None] is HASH_PREFIX_NONE. The parameter hashPrefix is in memory, since its address is
    taken (pointer [T]). *)
Definition c_HashInit (shake128 : bool) (prefix : option N) (A : pexp) (RC T : nat) : stmt :=
  (if shake128 then c_HashInitialize A 1344 256 else c_HashInitialize A 1088 512) ;;
  match prefix with
  | None => Skip
  | Some b => Loc T (IC 1) (St 1 (P0 T) (DC b) ;; c_HashUpdate A (P0 T) RC (IC 1))
  end.
(** hash.c:45-52 [HashFinal] and KeccakHash.c:64-71 [Keccak_HashFinal]; the call of SpongeSqueeze for 0 bytes at NULL
    does nothing and is left out. *)
Definition c_HashFinal (A : pexp) (RC : nat) : stmt :=
  Call (LastFewBits_body 0x1F) [IV 0; IV 1; IV 2] [] [PL [A]; PA RC] [(1, 1); (2, 2); (8, 8)] [] ;; c_report.
(** hash.c:55-62 [HashSqueeze] and KeccakHash.c:75-80 [Keccak_HashSqueeze]. *)
Definition c_HashSqueeze (A D : pexp) (RC : nat) (byteLen : iexp) : stmt :=
  Call SpongeSqueeze_body [IV 0; IV 1; IV 2; IDiv (IMul byteLen (IC 8)) (IC 8)] [] [PL [A]; PL [D]; PA RC] [(1, 1); (2, 2); (8, 8)] [] ;; c_report.

(** A use of the interface, as everywhere in the code: HashInit, a number of HashUpdate, HashFinal, a number of HashSqueeze.
    Pointers: 0 the context's state, 1 KeccakRoundConstants, 2 the inputs, 3 the outputs. *)
Fixpoint c_updates (i : nat) (lens : list nat) : stmt :=
  match lens with [] => Skip | n :: ls => c_HashUpdate (P0 0) (PV 2 (IC i)) 1 (IC n) ;; c_updates (S i) ls end.
Fixpoint c_squeezes (i : nat) (lens : list nat) : stmt :=
  match lens with [] => Skip | n :: ls => c_HashSqueeze (P0 0) (PV 3 (IC i)) 1 (IC n) ;; c_squeezes (S i) ls end.
Definition c_hash (shake128 : bool) (prefix : option N) (ins outs : list nat) : stmt :=
  c_HashInit shake128 prefix (P0 0) 1 4 ;; c_updates 0 ins ;; c_HashFinal (P0 0) 1 ;; c_squeezes 0 outs.
