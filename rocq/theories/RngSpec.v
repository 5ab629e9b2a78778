(** What an operating system may do when random bytes are asked for. *)

From Coq Require Import List NArith Arith.
From Verif Require Import Base Spec Rng.
Import ListNotations.

(** The system grants a complete read. *)
Definition grants (o : os) (w : process) (len : nat) : Prop :=
  opened w < os_limit o /\ os_refuses o (attempts w) = false /\ len <= length (os_read o (attempts w) len).

(** The system opens the file and the read delivers too little. *)
Definition cut_short (o : os) (w : process) (len : nat) : Prop :=
  opened w < os_limit o /\ os_refuses o (attempts w) = false /\ length (os_read o (attempts w) len) < len.

(** What the system delivers are bytes. *)
Definition os_bytes_ok (o : os) : Prop := forall k n, bytes_ok (os_read o k n).

(** A system whose reads are short. *)
Definition starved (o : os) : Prop := (forall k, os_refuses o k = false) /\ (forall k n, 0 < n -> length (os_read o k n) < n).
