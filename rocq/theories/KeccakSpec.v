(** SHAKE128 and SHAKE256 as in FIPS 202, on strings of bits.  Independent of the code. *)

From Coq Require Import List NArith Arith Bool.
Import ListNotations.

Definition bits := list bool.

(** Bitwise exclusive or of two strings of the same length. *)
Definition xor_bits (a b : bits) : bits := map (fun p => xorb (fst p) (snd p)) (combine a b).

(** ** State arrays, section 3.1: A[x,y,z] = S[64(5y+x)+z] *)
Definition at3 (S : bits) (x y z : nat) : bool := nth (64 * (5 * y + x) + z) S false.

Definition tab (f : nat -> nat -> nat -> bool) : bits :=
  flat_map (fun y => flat_map (fun x => map (f x y) (seq 0 64)) (seq 0 5)) (seq 0 5).

(** Algorithm 1. *)
Definition column (S : bits) (x z : nat) : bool :=
  xorb (at3 S x 0 z) (xorb (at3 S x 1 z) (xorb (at3 S x 2 z) (xorb (at3 S x 3 z) (at3 S x 4 z)))).

Definition step_theta (S : bits) : bits :=
  tab (fun x y z =>
    xorb (at3 S x y z) (xorb (column S ((x + 4) mod 5) z) (column S ((x + 1) mod 5) ((z + 63) mod 64)))).

(** Algorithm 2: the position visited at step t, and the offset of each lane. *)
Fixpoint rho_walk (t : nat) : nat * nat :=
  match t with
  | O => (1, 0)
  | S t' => let '(x, y) := rho_walk t' in (y, (2 * x + 3 * y) mod 5)
  end.

Definition rho_offset (x y : nat) : nat :=
  match find (fun t => (fst (rho_walk t) =? x) && (snd (rho_walk t) =? y)) (seq 0 24) with
  | Some t => ((t + 1) * (t + 2) / 2) mod 64
  | None => 0
  end.

Definition step_rho (S : bits) : bits :=
  tab (fun x y z => at3 S x y ((z + (64 - rho_offset x y)) mod 64)).

(** Algorithm 3. *)
Definition step_pi (S : bits) : bits := tab (fun x y z => at3 S ((x + 3 * y) mod 5) x z).

(** Algorithm 4. *)
Definition step_chi (S : bits) : bits :=
  tab (fun x y z => xorb (at3 S x y z)
                         (andb (xorb (at3 S ((x + 1) mod 5) y z) true) (at3 S ((x + 2) mod 5) y z))).

(** Algorithm 5. *)
Definition rc_step (R : bits) : bits :=
  let r i := nth i (false :: R) false in
  [xorb (r 0) (r 8); r 1; r 2; r 3; xorb (r 4) (r 8); xorb (r 5) (r 8); xorb (r 6) (r 8); r 7].

Definition rc (t : nat) : bool :=
  nth 0 (Nat.iter (t mod 255) rc_step [true; false; false; false; false; false; false; false]) false.

(** Algorithm 6: bit z of the round constant is rc(j + 7 i_r) when z = 2^j - 1, j <= 6. *)
Definition RC (ir z : nat) : bool :=
  match find (fun j => z =? 2 ^ j - 1) (seq 0 7) with
  | Some j => rc (j + 7 * ir)
  | None => false
  end.

Definition step_iota (ir : nat) (S : bits) : bits :=
  tab (fun x y z => if (x =? 0) && (y =? 0) then xorb (at3 S x y z) (RC ir z) else at3 S x y z).

(** Algorithm 7 with b = 1600 and 24 rounds. *)
Definition keccak_f (S : bits) : bits :=
  fold_left (fun S ir => step_iota ir (step_chi (step_pi (step_rho (step_theta S))))) (seq 0 24) S.

(** Algorithm 9, pad10*1. *)
Definition pad101 (x m : nat) : bits :=
  [true] ++ repeat false ((x - (m + 2) mod x) mod x) ++ [true].

(** Algorithm 8, the sponge construction with rate [r]: absorbing ... *)
Definition blocks (r : nat) (P : bits) : list bits :=
  map (fun i => firstn r (skipn (r * i) P)) (seq 0 (length P / r)).

Definition absorbed (r : nat) (P : bits) : bits :=
  fold_left (fun S B => keccak_f (xor_bits S (B ++ repeat false (1600 - r)))) (blocks r P) (repeat false 1600).

(** ... and squeezing: the first [d] bits of the concatenated output blocks. *)
Definition squeezed (r d : nat) (S : bits) : bits :=
  firstn d (flat_map (fun i => firstn r (Nat.iter i keccak_f S)) (seq 0 ((d + r - 1) / r))).

Definition sponge_spec (r : nat) (M : bits) (d : nat) : bits :=
  squeezed r d (absorbed r (M ++ pad101 r (length M))).

(** Section 6.2. *)
Definition SHAKE128 (M : bits) (d : nat) : bits := sponge_spec 1344 (M ++ [true; true; true; true]) d.
Definition SHAKE256 (M : bits) (d : nat) : bits := sponge_spec 1088 (M ++ [true; true; true; true]) d.

(** Appendix B.1: bytes as strings of bits, least significant bit first. *)
Definition byte_bits (x : N) : bits := map (fun j => N.testbit x (N.of_nat j)) (seq 0 8).
Definition bytes_bits (l : list N) : bits := flat_map byte_bits l.
