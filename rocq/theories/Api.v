(** The public API: picnic.h, picnic.c:202-622. *)

From Coq Require Import List NArith Arith Bool.
From Verif Require Import Base Params Env LowMC Tree Picnic1 Picnic3.
Import ListNotations.

Definition PICNIC_MAX_LOWMC_BLOCK_SIZE : nat := 32.     (* picnic.h:36 *)
Definition PICNIC_MAX_SIGNATURE_SIZE : N := 209522.     (* picnic.h:39 *)

(** picnic.h [picnic_publickey_t] and [picnic_privatekey_t]; the arrays have 32 bytes. *)
Record publickey : Type := mkPk {
  pk_params : N;
  pk_plaintext : bytes;
  pk_ciphertext : bytes
}.

Record privatekey : Type := mkSk {
  sk_params : N;
  sk_data : bytes;
  sk_pk : publickey
}.

Definition zero_block : bytes := zeros PICNIC_MAX_LOWMC_BLOCK_SIZE.
Definition zero_pk : publickey := mkPk 0 zero_block zero_block.
Definition zero_sk : privatekey := mkSk 0 zero_block zero_pk.

Section Api.
Variable E : env.

(** picnic.c:202-254 [picnic_keygen] with non-NULL pk and sk; [rng i n] is the result of the
    i-th call of picnic_random_bytes for n bytes: success flag and the bytes in the buffer. The
    result is the return code ([true] for 0) and the two key structures. *)
Definition picnic_keygen (rng : nat -> nat -> bool * bytes) (parameters : N)
           (pk : publickey) (sk : privatekey) : res (bool * publickey * privatekey) :=
  if negb (is_valid_params parameters) then Ok (false, pk, sk)
  else
    match get_param_set parameters with
    | None => Ok (false, zero_pk, zero_sk)
    | Some P =>
        let '(ok1, r1) := rng 0 (stateSizeBytes P) in
        data <- blit zero_block 0 r1 ;;
        if negb ok1 then
          Ok (false, mkPk parameters zero_block zero_block, mkSk parameters data zero_pk)
        else
          data <- zeroTrailingBits data (stateSizeBits P) ;;
          let '(ok2, r2) := rng 1 (stateSizeBytes P) in
          pt <- blit zero_block 0 r2 ;;
          if negb ok2 then
            Ok (false, mkPk parameters pt zero_block, mkSk parameters data zero_pk)
          else
            pt <- zeroTrailingBits pt (stateSizeBits P) ;;
            ct <- LowMCEnc E P pt zero_block data ;;
            let pk := mkPk parameters pt ct in
            Ok (true, pk, mkSk parameters data pk)
    end.

(** picnic.c:202-254 with the NULL checks of lines 205-218. *)
Definition picnic_keygen_ptr (rng : nat -> nat -> bool * bytes) (parameters : N)
           (pk : option publickey) (sk : option privatekey)
  : res (bool * option publickey * option privatekey) :=
  match pk, sk with
  | Some p, Some s =>
      '(ok, p, s) <- picnic_keygen rng parameters p s ;; Ok (ok, Some p, Some s)
  | _, _ => Ok (false, pk, sk)
  end.

(** picnic.c:267-335 [picnic_sign]; [signature] is the caller's buffer, [signature_len] the value
    of *signature_len. Result: return code, buffer, *signature_len. *)
Definition picnic_sign (fuel : nat) (sk : privatekey) (message signature : bytes)
           (signature_len : nat) : res (bool * bytes * nat) :=
  match get_param_set (sk_params sk) with
  | None => Ok (false, signature, signature_len)
  | Some P =>
      r <- (if negb (is_picnic3 (sk_params sk)) then
              s <- sign_picnic1 E P fuel (sk_data sk) (pk_ciphertext (sk_pk sk))
                                (pk_plaintext (sk_pk sk)) message ;;
              match s with
              | None => Ok None
              | Some s => serializeSignature P s signature signature_len
              end
            else
              s <- sign_picnic3 E P fuel (sk_data sk) (pk_ciphertext (sk_pk sk))
                                (pk_plaintext (sk_pk sk)) message ;;
              match s with
              | None => Ok None
              | Some s => serializeSignature2 P s signature signature_len
              end) ;;
      match r with
      | None => Ok (false, signature, signature_len)
      | Some (n, buf) => Ok (true, buf, n)
      end
  end.

(** picnic.c:337-380 [picnic_signature_size]. *)
Definition picnic_signature_size (parameters : N) : N :=
  match get_param_set parameters with
  | None => PICNIC_MAX_SIGNATURE_SIZE
  | Some P =>
      let N' := N.of_nat in
      if is_picnic3 parameters then
        let u := N' (numOpenedRounds P) in
        let T := N' (numMPCRounds P) in
        let numTreeValues := (u * ceil_log2 ((T + (u - 1)) / u))%N in
        let proofSize := (N' (seedSizeBytes P) * ceil_log2 (N' (numMPCParties P))
                          + N' (andSizeBytes P) + N' (stateSizeBytes P)
                          + N' (digestSizeBytes P) + N' (stateSizeBytes P)
                          + N' (andSizeBytes P))%N in
        (N' (saltSizeBytes P) + N' (digestSizeBytes P)
         + numTreeValues * N' (seedSizeBytes P) + numTreeValues * N' (digestSizeBytes P)
         + proofSize * u)%N
      else
        let T := N' (numMPCRounds P) in
        let and := N' (numBytes (3 * numSboxes P * numRounds P)) in
        match transf P with
        | TRANSFORM_FS =>
            (T * (N' (digestSizeBytes P) + N' (stateSizeBytes P) + and
                  + 2 * N' (seedSizeBytes P))
             + N' (numBytes (2 * numMPCRounds P)) + N' (saltSizeBytes P))%N
        | TRANSFORM_UR =>
            (T * (N' (digestSizeBytes P) + N' (stateSizeBytes P) + 2 * and
                  + 3 * N' (seedSizeBytes P))
             + N' (numBytes (2 * numMPCRounds P)) + N' (saltSizeBytes P))%N
        | TRANSFORM_INVALID => PICNIC_MAX_SIGNATURE_SIZE
        end
  end.

(** picnic.c:382-452 [picnic_verify]; [signature] has exactly signature_len bytes; [true]: 0. *)
Definition picnic_verify (fuel : nat) (pk : publickey) (message signature : bytes) : res bool :=
  match get_param_set (pk_params pk) with
  | None => Ok false
  | Some P =>
      if negb (is_picnic3 (pk_params pk)) then
        s <- deserializeSignature E P signature ;;
        match s with
        | None => Ok false
        | Some s => verify E P fuel s (pk_ciphertext pk) (pk_plaintext pk) message
        end
      else
        s <- deserializeSignature2 E P fuel signature ;;
        match s with
        | None => Ok false
        | Some s => verify_picnic3 E P s (pk_ciphertext pk) (pk_plaintext pk) message
        end
  end.

(** picnic.c:455-480 [picnic_write_public_key]; NULL pointers are [None]. Result: return value
    ([None] for -1) and the new contents of [buf]. *)
Definition picnic_write_public_key (key : option publickey) (buf : option bytes) (buflen : nat)
  : res (option nat * option bytes) :=
  match key, buf with
  | Some key, Some b =>
      match get_param_set (pk_params key) with
      | None => Ok (None, buf)
      | Some P =>
          let n := stateSizeBytes P in
          if buflen <? 1 + 2 * n then Ok (None, buf)
          else
            b <- wr b 0 (N.modulo (pk_params key) 256) ;;
            ct <- slice (pk_ciphertext key) 0 n ;;
            b <- blit b 1 ct ;;
            pt <- slice (pk_plaintext key) 0 n ;;
            b <- blit b (1 + n) pt ;;
            Ok (Some (1 + 2 * n), Some b)
      end
  | _, _ => Ok (None, buf)
  end.

(** picnic.c:482-516 [picnic_read_public_key]; [buf] has exactly [buflen] bytes. Result: return
    code and the new contents of [*key]. *)
Definition picnic_read_public_key (key : option publickey) (buf : option bytes)
  : res (bool * option publickey) :=
  match key, buf with
  | Some k, Some b =>
      if length b <? 1 then Ok (false, key)
      else
        b0 <- rd b 0 ;;
        if negb (is_valid_params b0) then Ok (false, key)
        else
          let k := mkPk b0 (pk_plaintext k) (pk_ciphertext k) in
          match get_param_set b0 with
          | None => Ok (false, Some k)
          | Some P =>
              let n := stateSizeBytes P in
              if length b <? 1 + 2 * n then Ok (false, Some k)
              else
                c <- slice b 1 n ;;
                ct <- blit (pk_ciphertext k) 0 c ;;
                p <- slice b (1 + n) n ;;
                pt <- blit (pk_plaintext k) 0 p ;;
                let k := mkPk b0 pt ct in
                okc <- arePaddingBitsZero ct (stateSizeBits P) ;;
                if negb okc then Ok (false, Some k)
                else
                  okp <- arePaddingBitsZero pt (stateSizeBits P) ;;
                  Ok (okp, Some k)
          end
  | _, _ => Ok (false, key)
  end.

(** picnic.c:519-546 [picnic_write_private_key]. *)
Definition picnic_write_private_key (key : option privatekey) (buf : option bytes) (buflen : nat)
  : res (option nat * option bytes) :=
  match key, buf with
  | Some key, Some b =>
      match get_param_set (sk_params key) with
      | None => Ok (None, buf)
      | Some P =>
          let n := stateSizeBytes P in
          if buflen <? 1 + 3 * n then Ok (None, buf)
          else
            b <- wr b 0 (N.modulo (sk_params key) 256) ;;
            d <- slice (sk_data key) 0 n ;;
            b <- blit b 1 d ;;
            ct <- slice (pk_ciphertext (sk_pk key)) 0 n ;;
            b <- blit b (1 + n) ct ;;
            pt <- slice (pk_plaintext (sk_pk key)) 0 n ;;
            b <- blit b (1 + 2 * n) pt ;;
            Ok (Some (1 + 3 * n), Some b)
      end
  | _, _ => Ok (None, buf)
  end.

(** picnic.c:549-588 [picnic_read_private_key]. *)
Definition picnic_read_private_key (key : option privatekey) (buf : option bytes)
  : res (bool * option privatekey) :=
  match key, buf with
  | Some k, Some b =>
      if length b <? 1 then Ok (false, key)
      else
        b0 <- rd b 0 ;;
        if negb (is_valid_params b0) then Ok (false, key)
        else
          let k := mkSk b0 zero_block (mkPk b0 zero_block zero_block) in
          match get_param_set b0 with
          | None => Ok (false, Some k)
          | Some P =>
              let n := stateSizeBytes P in
              if length b <? 1 + 3 * n then Ok (false, Some k)
              else
                d <- slice b 1 n ;;
                data <- blit zero_block 0 d ;;
                c <- slice b (1 + n) n ;;
                ct <- blit zero_block 0 c ;;
                p <- slice b (1 + 2 * n) n ;;
                pt <- blit zero_block 0 p ;;
                let k := mkSk b0 data (mkPk b0 pt ct) in
                okd <- arePaddingBitsZero data (stateSizeBits P) ;;
                if negb okd then Ok (false, Some k)
                else
                  okc <- arePaddingBitsZero ct (stateSizeBits P) ;;
                  if negb okc then Ok (false, Some k)
                  else
                    okp <- arePaddingBitsZero pt (stateSizeBits P) ;;
                    Ok (okp, Some k)
          end
  | _, _ => Ok (false, key)
  end.

(** picnic.c:591-622 [picnic_validate_keypair]; the public key is dereferenced (line 596) before
    it is compared with NULL (line 601). *)
Definition picnic_validate_keypair (sk : option privatekey) (pk : option publickey) : res bool :=
  match pk with
  | None => UB
  | Some pk =>
      match get_param_set (pk_params pk) with
      | None => Ok false
      | Some P =>
          match sk with
          | None => Ok false
          | Some sk =>
              if negb (N.eqb (sk_params sk) (pk_params pk)) then Ok false
              else if negb (is_valid_params (sk_params sk)) then Ok false
              else
                ct <- LowMCEnc E P (pk_plaintext pk) zero_block (sk_data sk) ;;
                memcmp_eq ct (pk_ciphertext pk) (stateSizeBytes P)
          end
      end
  end.

End Api.
