(** Statements about hashing: SHAKE on bytes, and a run of the hash interface. *)

From Coq Require Import List NArith Arith Bool.
From Verif Require Import Base Params Env Keccak KeccakSpec.
Import ListNotations.

(** FIPS 202 appendix B.1: strings of bits as bytes. *)
Definition bits_byte (l : bits) : N :=
  fold_right (fun (b : bool) n => (if b then 1 else 0) + 2 * n)%N 0%N l.
Definition bits_bytes (l : bits) : bytes :=
  map (fun i => bits_byte (firstn 8 (skipn (8 * i) l))) (seq 0 (length l / 8)).

(** SHAKE128 ([true]) or SHAKE256 ([false]) of a byte string, [n] bytes of output. *)
Definition shake (b : bool) (m : bytes) (n : nat) : bytes :=
  bits_bytes ((if b then SHAKE128 else SHAKE256) (bytes_bits m) (8 * n)).

(** An environment with the real hash function. *)
Definition with_shake (E : env) : env :=
  mkEnv shake (uninit E) (LMatrix E) (LMatrixInv E) (KMatrix E) (KMatrixInv E) (RConstant E).

(** HashUpdate for each chunk. *)
Fixpoint updates (fuel : nat) (ctx : Keccak_HashInstance) (chunks : list bytes) : res Keccak_HashInstance :=
  match chunks with
  | [] => Ok ctx
  | c :: cs => ctx <- HashUpdate fuel ctx c (length c) ;; updates fuel ctx cs
  end.

(** HashSqueeze into each buffer; the filled buffers. *)
Fixpoint squeezes (fuel : nat) (ctx : Keccak_HashInstance) (bufs : list bytes) : res (list bytes) :=
  match bufs with
  | [] => Ok []
  | b :: bs =>
    '(ctx, d) <- HashSqueeze fuel ctx b (length b) ;;
    ds <- squeezes fuel ctx bs ;;
    Ok (d :: ds)
  end.

(** HashInit on an arbitrary context, HashUpdate calls, HashFinal, HashSqueeze calls. *)
Definition hash_session (fuel : nat) (ctx : Keccak_HashInstance) (P : paramset) (prefix : option N)
           (chunks bufs : list bytes) : res (list bytes) :=
  ctx <- HashInit fuel ctx P prefix ;;
  ctx <- updates fuel ctx chunks ;;
  ctx <- HashFinal fuel ctx ;;
  squeezes fuel ctx bufs.

(** The rate of the sponge in bytes. *)
Definition rate_bytes (P : paramset) : nat := if use_shake128 P then 168 else 136.

(** A buffer that is at least 200 bytes shorter than 4 GiB. *)
Definition short (b : bytes) : Prop := (N.of_nat (length b) + 200 <= 2 ^ 32)%N.

(** The chunk lengths the sponge code handles when it is at position [k] of a block of
    [r] bytes: every length at the start of a block; otherwise the lengths below
    2^32 - k, and the longer ones that are, modulo 2^32, at least [r - k] and below
    2^32 - k.  (2^61 bytes are 2^64 bits.) *)
Definition fits (r k : nat) (c : bytes) : Prop :=
  let len := N.of_nat (length c) in
  let w := (len mod 2 ^ 32)%N in
  (len < 2 ^ 61)%N /\
  (k = 0%nat \/ (w + N.of_nat k < 2 ^ 32 /\ (len < 2 ^ 32 \/ N.of_nat r <= w + N.of_nat k)))%N.

(** All chunks fit, the first one starting at position [k]. *)
Fixpoint all_fit (r k : nat) (chunks : list bytes) : Prop :=
  match chunks with
  | [] => True
  | c :: cs => fits r k c /\ all_fit r ((k + length c) mod r) cs
  end.
