(** LowMC: picnic_impl.c:169-231. *)

From Coq Require Import List NArith Arith Bool.
From Verif Require Import Base Params Env.
Import ListNotations.

Definition LOWMC_MAX_STATE_BYTES : nat := 64.   (* lowmc_constants.h:20 *)

(** Program sites of uninitialised buffers (arguments of [uninit]). *)
Definition site_matrix_mul_temp : nat := 0.
Definition site_LowMCEnc_roundKey : nat := 1.

Section LowMC.
Variable E : env.
Variable P : paramset.

(** picnic_impl.c:169-196 [matrix_mul]. *)
Definition matrix_mul_row (state matrix : bytes) (i : nat) : res N :=
  let W := stateSizeWords P in
  let wholeWords := stateSizeBits P / WORD_SIZE_BITS in
  prod <- for_loop wholeWords 0
            (fun j prod =>
               s <- rdw state j ;;
               m <- rdw matrix (i * W + j) ;;
               Ok (N.lxor prod (N.land s m))) 0%N ;;
  for_loop (stateSizeBits P - wholeWords * WORD_SIZE_BITS) (wholeWords * WORD_SIZE_BITS)
            (fun j prod =>
               bs <- getBit state j ;;
               bm <- getBit matrix (i * W * WORD_SIZE_BITS + j) ;;
               Ok (N.lxor prod (b2n (bs && bm)))) prod.

Definition matrix_mul (output state matrix : bytes) : res bytes :=
  let W := stateSizeWords P in
  let temp := uninit E site_matrix_mul_temp 0 LOWMC_MAX_STATE_BYTES in
  temp <- blit temp (4 * (W - 1)) (zeros 4) ;;
  temp <- for_loop (stateSizeBits P) 0
            (fun i temp =>
               prod <- matrix_mul_row state matrix i ;;
               setBit temp i (parity32 prod)) temp ;;
  src <- slice temp 0 (W * 4) ;;
  blit output 0 src.

(** picnic_impl.c:199-210 [substitution]; [k] is [i/3]. *)
Definition substitution (state : bytes) : res bytes :=
  for_loop (numSboxes P) 0
    (fun k state =>
       let i := 3 * k in
       a <- getBit state (i + 2) ;;
       b <- getBit state (i + 1) ;;
       c <- getBit state i ;;
       state <- setBit state (i + 2) (xorb a (b && c)) ;;
       state <- setBit state (i + 1) (xorb (xorb a b) (a && c)) ;;
       setBit state i (xorb (xorb (xorb a b) c) (a && b))) state.

(** picnic_impl.c:212-231 [LowMCEnc]; the callers always pass distinct plaintext and
    output buffers. *)
Definition LowMCEnc (plaintext output key : bytes) : res bytes :=
  let W := stateSizeWords P in
  let roundKey := uninit E site_LowMCEnc_roundKey 0 LOWMC_MAX_STATE_BYTES in
  pt <- slice plaintext 0 (W * 4) ;;
  output <- blit output 0 pt ;;
  roundKey <- matrix_mul roundKey key (KMatrix E P 0) ;;
  output <- xor_array output output roundKey W ;;
  '(output, _) <-
    for_loop (numRounds P) 1
      (fun r '(output, roundKey) =>
         roundKey <- matrix_mul roundKey key (KMatrix E P r) ;;
         output <- substitution output ;;
         output <- matrix_mul output output (LMatrix E P (r - 1)) ;;
         output <- xor_array output output (RConstant E P (r - 1)) W ;;
         output <- xor_array output output roundKey W ;;
         Ok (output, roundKey)) (output, roundKey) ;;
  Ok output.

End LowMC.
