(** The functions of picnic.c that write keys to bytes, read them from bytes and check key pairs, in the language of MiniC.

    The arrays of a key are buffers of PICNIC_MAX_LOWMC_BLOCK_SIZE bytes, given in the order in which they are written to
    bytes: ciphertext and plaintext for a public key; data, pk.ciphertext and pk.plaintext for a private key. The fields
    params are index variables. The comparisons with NULL are not part of the programs: a pointer of MiniC is never NULL. *)

From Coq Require Import List NArith Arith Bool.
From Verif Require Import Base Params Env MiniC CodeLowMC CodeP3 CodeDeserialize Api.
Import ListNotations.
Local Open Scope c_scope.

(** memcpy(buf + 1 + j * n, array j, n), for the [m] arrays from [j] on. *)
Fixpoint copies_out (n j m : nat) : stmt :=
  match m with
  | 0 => Skip
  | S m' => MemCpy (PAdd (P0 0) (IC (1 + j * n))) (PV 1 (IC j)) (IC n) ;; copies_out n (S j) m'
  end.

(** picnic.c:467-479 (picnic_write_public_key, [m] = 2) and 531-545 (picnic_write_private_key, [m] = 3), for a key with
    params = [p], for which get_param_set gives [P]. Pointers: 0 buf, 1 the arrays. Index: 0 buflen, 5 the value returned,
    0 in place of -1. *)
Definition c_write_key (p : N) (P : paramset) (m : nat) : stmt :=
  If (CLt (IV 0) (IC (1 + m * stateSizeBytes P))) (ISet 5 (IC 0))
    (St 1 (P0 0) (DC p) ;; copies_out (stateSizeBytes P) 0 m ;; ISet 5 (IC (1 + m * stateSizeBytes P))).

(** memcpy(array j, buf + 1 + j * n, n), for the [m] arrays from [j] on. *)
Fixpoint copies_in (n j m : nat) : stmt :=
  match m with
  | 0 => Skip
  | S m' => MemCpy (PV 1 (IC j)) (PAdd (P0 0) (IC (1 + j * n))) (IC n) ;; copies_in n (S j) m'
  end.

(** picnic.c:510-515 and 581-587: arePaddingBitsZero for one array after the other, until one of them fails. *)
Fixpoint c_checks (P : paramset) (j m : nat) : stmt :=
  match m with
  | 0 => ISet 5 (IC 1)
  | S m' => Call (padding_body (padding_bits P)) [] [] [PL [PV 1 (IC j)]] [(9, 5)] [] ;;
            If (CEq (IV 9) (IC 0)) (ISet 5 (IC 0)) (c_checks P (S j) m')
  end.

(** picnic.c:501-515 and 571-587. *)
Definition c_read_arrays (P : paramset) (m : nat) : stmt :=
  If (CLt (IV 0) (IC (1 + m * stateSizeBytes P))) (ISet 5 (IC 0)) (copies_in (stateSizeBytes P) 0 m ;; c_checks P 0 m).

(** What get_param_set gives depends on params, which is read from the bytes: one branch for each of [ps]. *)
Fixpoint c_dispatch (ps : list N) (m : nat) : stmt :=
  match ps with
  | [] => ISet 5 (IC 0)
  | p :: r =>
      match get_param_set p with
      | Some P => If (CEq (IV 6) (IC (N.to_nat p))) (c_read_arrays P m) (c_dispatch r m)
      | None => c_dispatch r m
      end
  end.
Definition param_sets : list N := [1; 2; 3; 4; 5; 6; 7; 8; 9; 10; 11; 12]%N.

(** The arrays in memset(key, 0x00, sizeof(picnic_privatekey_t)). *)
Fixpoint clear_arrays (j m : nat) : stmt :=
  match m with
  | 0 => Skip
  | S m' => MemSet (PV 1 (IC j)) 0 (IC PICNIC_MAX_LOWMC_BLOCK_SIZE) ;; clear_arrays (S j) m'
  end.

(** picnic.c:488-515 (picnic_read_public_key, [m] = 2, not [private]) and 555-587 (picnic_read_private_key, [m] = 3,
    [private]). Pointers: 0 buf, 1 the arrays. Data: 0 buf[0]. Index: 0 buflen, 5 set to 1 for the return value 0 and to 0
    for -1, 6 buf[0], 7 key->params, 8 key->pk.params (private keys), 9 the result of arePaddingBitsZero. *)
Definition c_read_key (m : nat) (private : bool) : stmt :=
  ISet 5 (IC 0) ;;
  If (CLt (IV 0) (IC 1)) Skip
    (Ld 1 0 (P0 0) ;; ToI 6 (DV 0) ;;
     If (CLt (IC 0) (IV 6))
       (If (CLt (IV 6) (IC (N.to_nat PARAMETER_SET_MAX_INDEX)))
          ((if private then clear_arrays 0 m else Skip) ;;
           ISet 7 (IV 6) ;;
           (if private then ISet 8 (IV 6) else Skip) ;;
           c_dispatch param_sets m)
          Skip)
       Skip).

(** picnic.c:605-621 (picnic_validate_keypair), for a public key the params of which give [P]. Pointers: 0
    publickey->plaintext, 1 privatekey->data, 2 to 4 the tables of LowMC (as in CodeLowMC), 5 ciphertext, 6
    publickey->ciphertext. Data: 0 the result of memcmp. Index: 0 publickey->params, 1 privatekey->params, 5 set to 1 for the
    return value 0 and to 0 for -1. The array ciphertext of bytes is used as one of 32-bit words; that it is aligned as
    such is assumed, like for every local of MiniC. *)
Definition c_validate (P : paramset) : stmt :=
  If (CEq (IV 1) (IV 0))
    (If (CLt (IC 0) (IV 1))
       (If (CLt (IV 1) (IC (N.to_nat PARAMETER_SET_MAX_INDEX)))
          (Loc 5 (IC PICNIC_MAX_LOWMC_BLOCK_SIZE)
             (MemSet (P0 5) 0 (IC PICNIC_MAX_LOWMC_BLOCK_SIZE) ;;
              c_LowMCEnc P (P0 0) (P0 5) (P0 1) 2 3 4 ;;
              c_memcmp 0 (P0 5) (P0 6) (IC (stateSizeBytes P)) ;;
              IfD (DV 0) (ISet 5 (IC 0)) (ISet 5 (IC 1))))
          (ISet 5 (IC 0)))
       (ISet 5 (IC 0)))
    (ISet 5 (IC 0)).
