(** The default source of random bytes, with the files it opens. *)

From Coq Require Import List NArith ZArith Arith Bool.
From Verif Require Import Base Params Env LowMC Api.
Import ListNotations.

(** The operating system: how many files a process may have open, whether it refuses to open /dev/urandom at the [k]-th
    attempt, and what a read at that attempt delivers (at most as many bytes as asked for). *)
Record os := mkOs { os_limit : nat; os_refuses : nat -> bool; os_read : nat -> nat -> bytes }.
(** A process: files it has open, attempts made so far. *)
Record process := mkProc { opened : nat; attempts : nat }.

(** picnic_impl.c:803-817 [random_bytes_default] for Linux. *)
Definition random_bytes_default (o : os) (w : process) (buf : bytes) (len : nat) : process * Z * bytes :=
  if (os_limit o <=? opened w) || os_refuses o (attempts w) then
    (mkProc (opened w) (S (attempts w)), (-1)%Z, buf)
  else
    let d := firstn len (os_read o (attempts w) len) in
    let buf := d ++ skipn (length d) buf in
    if negb (length d =? len) then (mkProc (S (opened w)) (S (attempts w)), (-2)%Z, buf)
    else (mkProc (opened w) (S (attempts w)), 0%Z, buf).

(** The bytes that a call leaves in a zeroed buffer, and the results of the first and second call as [picnic_keygen] takes
    them (picnic.c:222-223, 235 and 242; both calls ask for the same number of bytes). *)
Definition delivered (o : os) (w : process) (n : nat) : bool * bytes :=
  let '(_, r, b) := random_bytes_default o w (zeros n) n in (Z.eqb r 0, b).
Definition rng_of (o : os) (w : process) (i n : nat) : bool * bytes :=
  match i with
  | 0 => delivered o w n
  | _ => let '(w, _, _) := random_bytes_default o w (zeros n) n in delivered o w n
  end.

(** The process after [picnic_keygen] (picnic.c:202-254): the second call is made if the first one succeeded. *)
Definition keygen_process (o : os) (w : process) (parameters : N) : process :=
  if negb (is_valid_params parameters) then w
  else
    match get_param_set parameters with
    | None => w
    | Some P =>
        let '(w, r, _) := random_bytes_default o w (zeros (stateSizeBytes P)) (stateSizeBytes P) in
        if negb (Z.eqb r 0) then w
        else let '(w, _, _) := random_bytes_default o w (zeros (stateSizeBytes P)) (stateSizeBytes P) in w
    end.

(** Several key generations one after the other. *)
Fixpoint keygens (o : os) (w : process) (parameters : N) (k : nat) : process :=
  match k with O => w | S k => keygens o (keygen_process o w parameters) parameters k end.
