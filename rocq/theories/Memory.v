(** Memory: blocks, the pointers stored in them, allocation and release.

    The other model files describe what the code computes on byte lists.  This file and the files
    [Alloc.v] and [AllocApi.v] describe the same code once more with respect to its use of memory: which
    blocks it allocates, which pointers it stores where, and what it releases.  The bytes of the blocks
    are not part of this description; pointers are.

    Platform: x86-64, 8-byte pointers.  NULL is the pointer with all bytes zero. *)

From Coq Require Import List NArith Arith Bool.
From Verif Require Import Base.
Import ListNotations.

(** A pointer: NULL or an offset in a block. *)
Inductive ptr : Type := Null | Loc (b off : nat).

(** What an 8-byte slot of a block holds: [Undef] when nothing has been stored as a pointer since the
    block was obtained from [malloc]. *)
Inductive cell : Type := Undef | Ptr (p : ptr).

(** Live memory is a list of items: [Tok b n h] is a live block [b] of [n] bytes, obtained from the
    allocator when [h] is true and a local variable otherwise; [Cel b o c] is its 8-byte slot at
    offset [o].  Every block has one slot for each multiple of 8 that fits. *)
Inductive item : Type := Tok (b n : nat) (h : bool) | Cel (b o : nat) (c : cell).

(** [next] numbers the blocks; [refuses k] says that the allocator refuses the request that would give
    block [k], for lack of memory. *)
Record mem : Type := mkMem { live : list item; next : nat; refuses : nat -> bool }.

Definition M (A : Type) : Type := mem -> res (A * mem).
Definition ret {A} (a : A) : M A := fun m => Ok (a, m).
Definition mbind {A B} (f : M A) (g : A -> M B) : M B := fun m => '(a, m') <- f m;; g a m'.
Definition crash {A} : M A := fun _ => UB.
Notation "x <~ e ;; k" := (mbind e (fun x => k)) (at level 100, e at next level, right associativity).
Notation "e ;;; k" := (mbind e (fun _ => k)) (at level 100, right associativity).

(** [for (i = i0; i < i0 + n; i++) s = body(i, s)] *)
Fixpoint mfor {A : Type} (n i0 : nat) (body : nat -> A -> M A) (s : A) : M A :=
  match n with
  | O => ret s
  | S n' => s' <~ body i0 s;; mfor n' (S i0) body s'
  end.
Definition mdo (n : nat) (body : nat -> M unit) : M unit := mfor n 0 (fun i _ => body i) tt.

(** The same with a body that may leave the loop by [goto]: the result is [true] when it did not. *)
Fixpoint mfor_exit (n i0 : nat) (body : nat -> M bool) : M bool :=
  match n with
  | O => ret true
  | S n' => go <~ body i0;; if go then mfor_exit n' (S i0) body else ret false
  end.

Definition slots (b n : nat) (c : cell) : list item := map (fun i => Cel b (8 * i) c) (seq 0 (n / 8)).

Definition new_block (n : nat) (h : bool) (c : cell) : M ptr := fun m =>
  if h && refuses m (next m) then Ok (Null, mkMem (live m) (S (next m)) (refuses m))
  else Ok (Loc (next m) 0, mkMem (Tok (next m) n h :: slots (next m) n c ++ live m) (S (next m)) (refuses m)).

(** [malloc(n)] and [calloc(n, size)]: NULL when the request is refused. *)
Definition malloc (n : nat) : M ptr := new_block n true Undef.
Definition calloc (n size : nat) : M ptr := new_block (n * size) true (Ptr Null).

(** A local variable of [n] bytes, uninitialised or [= {0}], and the end of its lifetime. *)
Definition local (n : nat) : M ptr := new_block n false Undef.
Definition local_zero (n : nat) : M ptr := new_block n false (Ptr Null).

Definition is_tok (b : nat) (h : bool) (x : item) : bool :=
  match x with Tok b' _ h' => (b' =? b) && Bool.eqb h' h | _ => false end.
Definition is_cel (b o : nat) (x : item) : bool :=
  match x with Cel b' o' _ => (b' =? b) && (o' =? o) | _ => false end.
Definition of_block (b : nat) (x : item) : bool :=
  match x with Tok b' _ _ => b' =? b | Cel b' _ _ => b' =? b end.

Definition drop_block (b : nat) (h : bool) : M unit := fun m =>
  if existsb (is_tok b h) (live m) then Ok (tt, mkMem (filter (fun x => negb (of_block b x)) (live m)) (next m) (refuses m))
  else UB.

(** [free(p)]: undefined unless [p] is NULL or the start of a live block from the allocator. *)
Definition free (p : ptr) : M unit :=
  match p with
  | Null => ret tt
  | Loc b 0 => drop_block b true
  | _ => crash
  end.
Definition local_end (p : ptr) : M unit :=
  match p with Loc b 0 => drop_block b false | _ => crash end.

(** [realloc(p, n)]; for [n = 0] the block is released and NULL returned (glibc).  When the request is
    refused the old block stays. *)
Definition refused : M bool := fun m => Ok (refuses m (next m), m).
Definition realloc (p : ptr) (n : nat) : M ptr :=
  r <~ refused;;
  if r && negb (n =? 0) then malloc n else
  free p;;; if n =? 0 then ret Null else malloc n.
Definition is_null (p : ptr) : bool := match p with Null => true | Loc _ _ => false end.

(** [p + k] in bytes. *)
Definition plus (p : ptr) (k : nat) : ptr := match p with Null => Null | Loc b o => Loc b (o + k) end.
Notation "p +p k" := (plus p k) (at level 45, left associativity).

(** Reading a slot: undefined outside live blocks, at unaligned addresses. *)
Definition load_cell (p : ptr) : M cell := fun m =>
  match p with
  | Null => UB
  | Loc b o => match find (is_cel b o) (live m) with Some (Cel _ _ c) => Ok (c, m) | _ => UB end
  end.

(** Reading a pointer: undefined when none has been stored. *)
Definition load (p : ptr) : M ptr :=
  c <~ load_cell p;; match c with Ptr q => ret q | Undef => crash end.

(** Storing a pointer. *)
Definition store (p q : ptr) : M unit := fun m =>
  match p with
  | Null => UB
  | Loc b o =>
      if existsb (is_cel b o) (live m) then
        Ok (tt, mkMem (map (fun x => if is_cel b o x then Cel b o (Ptr q) else x) (live m)) (next m) (refuses m))
      else UB
  end.

(** An access to [n] bytes at [p]: undefined unless they lie in a live block. *)
Definition use (p : ptr) (n : nat) : M unit := fun m =>
  match p with
  | Null => UB
  | Loc b o =>
      if existsb (fun x => match x with Tok b' n' _ => (b' =? b) && (o + n <=? n') | _ => false end) (live m)
      then Ok (tt, m) else UB
  end.
