(** Basic vocabulary of the model: outcomes, bounded loops, byte buffers,
    bit access.  Everything here is executable; no proofs. *)

From Coq Require Import List NArith Arith Bool.
Import ListNotations.

(** ** Outcomes
    C undefined behaviour (out-of-bounds access, NULL dereference) is the
    distinct outcome [UB]; a failing [assert] is [Abort]; a loop of the code
    without static bound that used up its fuel is [NoFuel].  C return codes are
    ordinary values inside [Ok]. *)
Inductive res (A : Type) : Type :=
| Ok (a : A)
| UB
| Abort
| NoFuel.
Arguments Ok {A} a.
Arguments UB {A}.
Arguments Abort {A}.
Arguments NoFuel {A}.

Definition bind {A B : Type} (x : res A) (f : A -> res B) : res B :=
  match x with
  | Ok a => f a
  | UB => UB
  | Abort => Abort
  | NoFuel => NoFuel
  end.

Notation "x <- e ;; k" := (bind e (fun x => k))
  (at level 61, e at next level, right associativity).
Notation "' p <- e ;; k" := (bind e (fun x => match x with p => k end))
  (at level 61, p pattern, e at next level, right associativity).

(** A precondition of a memory operation: its violation is undefined behaviour. *)
Definition guard (b : bool) : res unit := if b then Ok tt else UB.

(** C [assert]. *)
Definition c_assert (b : bool) : res unit := if b then Ok tt else Abort.

(** [for (i = i0; i < i0 + n; i++) s = body(i, s)]. *)
Fixpoint for_loop {S : Type} (n i0 : nat) (body : nat -> S -> res S) (s : S) : res S :=
  match n with
  | O => Ok s
  | Datatypes.S n' => s' <- body i0 s ;; for_loop n' (Datatypes.S i0) body s'
  end.

(** Evaluate [f i0], [f (i0+1)], ..., [n] values, in order. *)
Fixpoint mapM_seq {A : Type} (n i0 : nat) (f : nat -> res A) : res (list A) :=
  match n with
  | O => Ok []
  | Datatypes.S n' => x <- f i0 ;; xs <- mapM_seq n' (Datatypes.S i0) f ;; Ok (x :: xs)
  end.

(** ** Buffers *)
Definition bytes := list N.

(** Array read. *)
Definition rd {A : Type} (b : list A) (i : nat) : res A :=
  match nth_error b i with
  | Some x => Ok x
  | None => UB
  end.

Fixpoint list_set {A : Type} (b : list A) (i : nat) (x : A) : list A :=
  match b, i with
  | [], _ => []
  | _ :: t, O => x :: t
  | h :: t, Datatypes.S i' => h :: list_set t i' x
  end.

(** Array write. *)
Definition wr {A : Type} (b : list A) (i : nat) (x : A) : res (list A) :=
  if i <? length b then Ok (list_set b i x) else UB.

(** Read [len] bytes at offset [off] (source operand of [memcpy] etc.). *)
Definition slice {A : Type} (b : list A) (off len : nat) : res (list A) :=
  if off + len <=? length b then Ok (firstn len (skipn off b)) else UB.

(** Overwrite [length src] elements of [b] from offset [off] (destination operand of [memcpy]). *)
Definition blit {A : Type} (b : list A) (off : nat) (src : list A) : res (list A) :=
  if off + length src <=? length b
  then Ok (firstn off b ++ src ++ skipn (off + length src) b)
  else UB.

Definition zeros (n : nat) : bytes := repeat 0%N n.

(** memcmp(a, b, n) == 0, both operands must have at least n bytes. *)
Fixpoint eqb_bytes (a b : bytes) : bool :=
  match a, b with
  | [], [] => true
  | x :: a', y :: b' => N.eqb x y && eqb_bytes a' b'
  | _, _ => false
  end.

Definition memcmp_eq (a b : bytes) (n : nat) : res bool :=
  x <- slice a 0 n ;; y <- slice b 0 n ;; Ok (eqb_bytes x y).

(** 32-bit word [j] of a byte buffer, little-endian. *)
Definition rdw (b : bytes) (j : nat) : res N :=
  b0 <- rd b (4 * j) ;; b1 <- rd b (4 * j + 1) ;;
  b2 <- rd b (4 * j + 2) ;; b3 <- rd b (4 * j + 3) ;;
  Ok (b0 + 2 ^ 8 * b1 + 2 ^ 16 * b2 + 2 ^ 24 * b3)%N.

(** ** Bits: picnic_impl.c:50-72.
    Bits are modelled by [bool]; the C values are [uint8_t] 0/1. *)
Definition b2n (b : bool) : N := if b then 1%N else 0%N.

(** picnic_impl.c:50-53 [getBit], and 56-59 [getBitFromWordArray] (same byte view). *)
Definition getBit (array : bytes) (bitNumber : nat) : res bool :=
  x <- rd array (bitNumber / 8) ;;
  Ok (N.eqb (N.land (N.shiftr x (N.of_nat (7 - bitNumber mod 8))) 1) 1).

(** picnic_impl.c:62-66 [setBit], and 69-72 [setBitInWordArray]; the result of the
    int expression is truncated to [uint8_t]. *)
Definition setBit (array : bytes) (bitNumber : nat) (val : bool) : res bytes :=
  let k := N.of_nat (7 - bitNumber mod 8) in
  x <- rd array (bitNumber / 8) ;;
  wr array (bitNumber / 8)
     (N.modulo (N.lor (N.ldiff x (N.shiftl 1 k)) (N.shiftl (b2n val) k)) 256).

(** picnic_impl.c:102-105 [numBytes]. *)
Definition numBytes (numBits : nat) : nat :=
  if numBits =? 0 then 0 else (numBits - 1) / 8 + 1.

(** picnic_impl.c:74-80 [zeroTrailingBits]. *)
Definition zeroTrailingBits (data : bytes) (bitLength : nat) : res bytes :=
  for_loop (numBytes bitLength * 8 - bitLength) bitLength
           (fun i d => setBit d i false) data.

(** picnic_impl.c:1069-1079 [arePaddingBitsZero]. *)
Fixpoint arePaddingBitsZero_from (n i : nat) (data : bytes) : res bool :=
  match n with
  | O => Ok true
  | S n' => b <- getBit data i ;;
            if (b : bool) then Ok false else arePaddingBitsZero_from n' (S i) data
  end.
Definition arePaddingBitsZero (data : bytes) (bitLength : nat) : res bool :=
  arePaddingBitsZero_from (numBytes bitLength * 8 - bitLength) bitLength data.

(** ** XOR of word arrays *)
Fixpoint lxor_list (a b : bytes) : bytes :=
  match a, b with
  | x :: a', y :: b' => N.lxor x y :: lxor_list a' b'
  | _, _ => []
  end.

(** picnic_impl.c:107-112 [xor_array] on [length] 32-bit words, modelled bytewise
    (XOR does not depend on endianness; in/out may alias, each word is read before
    it is written). *)
Definition xor_array (out in1 in2 : bytes) (len : nat) : res bytes :=
  a <- slice in1 0 (4 * len) ;;
  b <- slice in2 0 (4 * len) ;;
  blit out 0 (lxor_list a b).

(** picnic_impl.c:113-127 [xor_three], [lenBytes] bytes (whole words, then bytes). *)
Definition xor_three (out in1 in2 in3 : bytes) (lenBytes : nat) : res bytes :=
  a <- slice in1 0 lenBytes ;;
  b <- slice in2 0 lenBytes ;;
  c <- slice in3 0 lenBytes ;;
  blit out 0 (lxor_list (lxor_list a b) c).

(** picnic_impl.c:155-167 [parity32]; also the tail of [parity], picnic_impl.c:94-99. *)
Definition parity32 (x : N) : bool :=
  let y := N.lxor x (N.shiftr x 1) in
  let y := N.lxor y (N.shiftr y 2) in
  let y := N.lxor y (N.shiftr y 4) in
  let y := N.lxor y (N.shiftr y 8) in
  let y := N.lxor y (N.shiftr y 16) in
  N.eqb (N.land y 1) 1.

(** picnic_impl.c:82-100 [parity]: parity of [len] words. *)
Definition parity (data : bytes) (len : nat) : res bool :=
  x0 <- rdw data 0 ;;
  x <- for_loop (len - 1) 1 (fun i x => w <- rdw data i ;; Ok (N.lxor x w)) x0 ;;
  Ok (parity32 x).
