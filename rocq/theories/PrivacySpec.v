(** Notions used in the statements about what the opened parties show. *)

From Coq Require Import List NArith Arith.
From Verif Require Import Base Params Env Spec LowMC Picnic1.
Import ListNotations.

(** The triple with entry [j] replaced. *)
Definition tset {A : Type} (t : tri A) (j : nat) (x : A) : tri A :=
  let '(a, b, c) := t in
  match j with 0 => (x, b, c) | 1 => (a, x, c) | _ => (a, b, x) end.

(** The value shared by the input shares of three views, bit by bit. *)
Definition shared_key (vs : tri view) : vec :=
  fun j => xorb (xorb (bit (v_inputShare (tget vs 0)) j) (bit (v_inputShare (tget vs 1)) j))
                (bit (v_inputShare (tget vs 2)) j).
