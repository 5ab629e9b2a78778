(** Key generation (picnic_keygen of picnic.c) in the language of MiniC. *)

From Coq Require Import List NArith Arith Bool.
From Verif Require Import Base Params Env MiniC CodeLowMC CodeSign CodeKeys Api.
Import ListNotations.
Local Open Scope c_scope.

(** picnic_random_bytes(dst, n) is external: the bytes it delivers are those at pointer [r]. *)
Definition c_random (dst : pexp) (r n : nat) : stmt := MemCpy dst (P0 r) (IC n).

(** picnic.c:220-253, for a valid value [p] of parameters, for which get_param_set gives [P]. The arrays of the keys, entries of
    pointer 1: 0 pk->ciphertext, 1 pk->plaintext, 2 sk->data, 3 sk->pk.ciphertext, 4 sk->pk.plaintext. Pointers 2 and 3: the bytes
    the two calls of picnic_random_bytes deliver; index 10 and 11 whether they succeed (1) or not (0). Pointers 4 to 6: the tables of
    LowMC. Index: 5 set to 1 for the return value 0 and to 0 for -1, 7 pk->params, 8 sk->params, 9 sk->pk.params. *)
Definition c_keygen (p : N) (P : paramset) : stmt :=
  ISet 5 (IC 0) ;;
  clear_arrays 0 5 ;; ISet 7 (IC 0) ;; ISet 8 (IC 0) ;; ISet 9 (IC 0) ;;
  ISet 8 (IC (N.to_nat p)) ;; ISet 7 (IC (N.to_nat p)) ;;
  c_random (PV 1 (IC 2)) 2 (stateSizeBytes P) ;;
  If (CEq (IV 10) (IC 0)) Skip
    (c_zeroTrailingBits (PV 1 (IC 2)) (stateSizeBits P) ;;
     c_random (PV 1 (IC 1)) 3 (stateSizeBytes P) ;;
     If (CEq (IV 11) (IC 0)) Skip
       (c_zeroTrailingBits (PV 1 (IC 1)) (stateSizeBits P) ;;
        c_LowMCEnc P (PV 1 (IC 1)) (PV 1 (IC 0)) (PV 1 (IC 2)) 4 5 6 ;;
        MemCpy (PV 1 (IC 3)) (PV 1 (IC 0)) (IC PICNIC_MAX_LOWMC_BLOCK_SIZE) ;;
        MemCpy (PV 1 (IC 4)) (PV 1 (IC 1)) (IC PICNIC_MAX_LOWMC_BLOCK_SIZE) ;;
        ISet 9 (IV 7) ;;
        ISet 5 (IC 1))).
