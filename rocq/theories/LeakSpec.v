(** Computing the private key from a Picnic3 signature.

    Both the tape of a party and, except for the last party, the commitment to its seed are
    SHAKE(seed, salt, t, j), with different output lengths (7.1, steps 4b and 4d of the specification;
    picnic3_impl.c:71-88 and 212-228).  So the commitment of the unopened party, which is part of the
    signature, is the start of its tape. *)

From Coq Require Import List NArith Arith Bool.
From Verif Require Import Base Params Env Spec ZkbppSpec KkwSpec.
Import ListNotations.

(** A shorter output of the hash function is the start of a longer one. *)
Definition xof_stream (E : env) : Prop :=
  forall b x m n, m <= n -> xof E b x m = firstn m (xof E b x n).

Section Leak.
Variable E : env.
Variable sp : sparams.
Variable K0inv : matrix.     (* inverse of the first key matrix *)

(** What a signature shows of the tape of party [j] of a challenged repetition [t]: the tape is computed
    from the seed, or, for the unopened party, the commitment is used in its place. *)
Definition shown_tape (LC LP : list nat) (sg : ksig) (t j : nat) : vec :=
  if j =? vhid LC LP t then bit (ko_C (vopen sg t)) else vtp E sp LC LP sg t j.

(** The masked key with the mask removed. *)
Definition unmasked_key (LC LP : list nat) (sg : ksig) (t : nat) : bytes :=
  bytes_of (sp_n sp)
    (vxor (bit (ko_key (vopen sg t)))
          (matvec (sp_n sp) K0inv (fun k => xsum (sp_N sp) (fun j => shown_tape LC LP sg t j k)))).

(** Parse the signature, take a repetition whose unopened party is not the last one. *)
Definition key_from_signature (fuel : nat) (b : bytes) : option bytes :=
  match read (octets (sp_H sp)) b with None => None | Some (h, b) =>
  match read 32 b with None => None | Some (salt, b) =>
  match challenge E sp fuel h with None => None | Some (LC, LP) =>
  match kparse sp LC LP h salt b with None => None | Some sg =>
  match find (fun t => negb (unopened LC LP t =? sp_N sp - 1)) LC with
  | None => None
  | Some t => Some (unmasked_key LC LP sg t)
  end end end end end.
End Leak.
