(** A small imperative language for the computing kernels of the C code: pointers into blocks of bytes, word
    accesses, local arrays, calls; and what an observer of its run sees.

    There are two kinds of integer variables. Index variables hold lengths, loop counters and positions;
    data variables hold what is read from memory. Data can reach control flow or an address only
    through [IfD] and [ToI], and these show the data to the observer. *)

From Coq Require Import List NArith Arith Bool.
From Verif Require Import Base.
Import ListNotations.

(** Pointer: block number and byte offset. Blocks are aligned for every type. *)
Definition ptr : Type := (nat * nat)%type.
Definition memory : Type := nat -> bytes.

Record state : Type := mkState {
  iv : nat -> nat;        (* index variables *)
  dv : nat -> N;          (* data variables *)
  pv : nat -> list ptr;   (* pointer variables: arrays of pointers; a single pointer is an array of one *)
  mm : memory;
  nx : nat;               (* blocks from [nx] on are not in use *)
  ct : nat                (* number of local arrays created so far *)
}.

(** Index expressions (unsigned C integers; the values of the code stay far below 2^32). *)
Inductive iexp : Type :=
| IC (n : nat) | IV (x : nat)
| IAdd (a b : iexp) | ISub (a b : iexp) | IMul (a b : iexp) | IDiv (a b : iexp) | IMod (a b : iexp).

(** Data expressions; [DCast w] is conversion to an unsigned type of [w] bytes, [DNot w] complement in
    [w] bytes. Operands of C expressions are promoted to [int]; shifts and [~] are followed by a
    conversion in all expressions of the code, so that a width of 4 bytes is enough; [DShlL] is the shift of a
    64-bit operand. *)
Inductive dop : Type := OAnd | OOr | OXor.
Inductive dexp : Type :=
| DC (n : N) | DV (x : nat)
| DOp (o : dop) (a b : dexp)
| DShl (a : dexp) (k : iexp) | DShr (a : dexp) (k : iexp) | DShlL (a : dexp) (k : iexp)
| DSub (a b : dexp)
| DNot (w : nat) (a : dexp) | DCast (w : nat) (a : dexp).

(** Pointer expressions: entry [i] of array [a]; addition of a number of bytes. *)
Inductive pexp : Type := PV (a : nat) (i : iexp) | PAdd (p : pexp) (k : iexp).
(** Pointer arguments of a call: an array, or new one. *)
Inductive parg : Type := PA (a : nat) | PL (l : list pexp).

Inductive cond : Type := CEq (a b : iexp) | CLt (a b : iexp) | CPtr (p q : pexp).

Inductive stmt : Type :=
| Skip
| Seq (s1 s2 : stmt)
| ISet (x : nat) (e : iexp)
| DSet (x : nat) (e : dexp)
| PSet (a : nat) (l : list pexp)
| Ld (w : nat) (x : nat) (p : pexp)                 (* x = *(uint{8w}_t* )p *)
| St (w : nat) (p : pexp) (e : dexp)                (* *(uint{8w}_t* )p = e *)
| MemCpy (p q : pexp) (n : iexp)
| MemSet (p : pexp) (b : N) (n : iexp)
| For (x : nat) (lo hi : iexp) (step : nat) (s : stmt)   (* for (x = lo; x < hi; x += step); [s] does not set [x] *)
| If (c : cond) (s1 s2 : stmt)
| Loc (a : nat) (n : iexp) (s : stmt)               (* uninitialised local array of [n] bytes, in scope in [s] *)
| Call (s : stmt) (ia : list iexp) (da : list dexp) (pa : list parg)
       (ir dr : list (nat * nat))                   (* copied back: (caller's variable, callee's variable) *)
| IfD (e : dexp) (s1 s2 : stmt)
| ToI (x : nat) (e : dexp).

(** What is observed: the address, width and kind of every access; every branch; data shown by [IfD], [ToI]. *)
Inductive event : Type :=
| Access (store : bool) (p : ptr) (n : nat)
| Branch (b : bool)
| Iterations (n : nat)
| Shown (d : N).

Definition upd {A : Type} (f : nat -> A) (x : nat) (v : A) : nat -> A := fun y => if y =? x then v else f y.
Definition args {A : Type} (d : A) (l : list A) : nat -> A := fun k => nth k l d.

Definition set_iv st f := mkState f (dv st) (pv st) (mm st) (nx st) (ct st).
Definition set_dv st f := mkState (iv st) f (pv st) (mm st) (nx st) (ct st).
Definition set_pv st f := mkState (iv st) (dv st) f (mm st) (nx st) (ct st).
Definition set_mm st m := mkState (iv st) (dv st) (pv st) m (nx st) (ct st).

Fixpoint ieval (f : nat -> nat) (e : iexp) : nat :=
  match e with
  | IC n => n | IV x => f x
  | IAdd a b => ieval f a + ieval f b | ISub a b => ieval f a - ieval f b | IMul a b => ieval f a * ieval f b
  | IDiv a b => ieval f a / ieval f b | IMod a b => ieval f a mod ieval f b
  end.

Definition wmod (w : nat) : N := (2 ^ (8 * N.of_nat w))%N.
Definition dop_eval (o : dop) : N -> N -> N := match o with OAnd => N.land | OOr => N.lor | OXor => N.lxor end.
Fixpoint deval (f : nat -> nat) (g : nat -> N) (e : dexp) : N :=
  match e with
  | DC n => n | DV x => g x
  | DOp o a b => dop_eval o (deval f g a) (deval f g b)
  | DShl a k => N.modulo (N.shiftl (deval f g a) (N.of_nat (ieval f k))) (wmod 4)
  | DShr a k => N.shiftr (deval f g a) (N.of_nat (ieval f k))
  | DShlL a k => N.modulo (N.shiftl (deval f g a) (N.of_nat (ieval f k))) (wmod 8)
  | DSub a b => N.modulo (deval f g a + wmod 4 - N.modulo (deval f g b) (wmod 4)) (wmod 4)
  | DNot w a => N.lxor (N.modulo (deval f g a) (wmod w)) (wmod w - 1)
  | DCast w a => N.modulo (deval f g a) (wmod w)
  end.

(** [None]: index beyond the array of pointers. *)
Fixpoint peval (f : nat -> nat) (h : nat -> list ptr) (e : pexp) : option ptr :=
  match e with
  | PV a i => nth_error (h a) (ieval f i)
  | PAdd p k => match peval f h p with Some (b, o) => Some (b, o + ieval f k) | None => None end
  end.
Fixpoint pevals f h (l : list pexp) : option (list ptr) :=
  match l with
  | [] => Some []
  | e :: l' => match peval f h e, pevals f h l' with Some p, Some ps => Some (p :: ps) | _, _ => None end
  end.
Definition pargeval f h (a : parg) : option (list ptr) := match a with PA x => Some (h x) | PL l => pevals f h l end.
Fixpoint pargevals f h (l : list parg) : option (list (list ptr)) :=
  match l with
  | [] => Some []
  | a :: l' => match pargeval f h a, pargevals f h l' with Some p, Some ps => Some (p :: ps) | _, _ => None end
  end.

Definition ceval f h (c : cond) : option bool :=
  match c with
  | CEq a b => Some (ieval f a =? ieval f b)
  | CLt a b => Some (ieval f a <? ieval f b)
  | CPtr p q => match peval f h p, peval f h q with
                | Some (b, o), Some (b', o') => Some ((b =? b') && (o =? o'))
                | _, _ => None
                end
  end.

(** Little-endian bytes of a word. *)
Fixpoint word_of (l : bytes) : N := match l with [] => 0 | x :: l' => x + 256 * word_of l' end%N.
Fixpoint bytes_of_word (w : nat) (d : N) : bytes :=
  match w with O => [] | S w' => N.modulo d 256 :: bytes_of_word w' (N.div d 256) end.

(** Access of [n] bytes at [p] for a type aligned to [a]. *)
Definition valid (m : memory) (n a : nat) (p : ptr) : bool :=
  (snd p + n <=? length (m (fst p))) && (snd p mod a =? 0).
Definition rdmem (m : memory) (p : ptr) (n : nat) : bytes := firstn n (skipn (snd p) (m (fst p))).
Definition wrmem (m : memory) (p : ptr) (l : bytes) : memory :=
  upd m (fst p) (firstn (snd p) (m (fst p)) ++ l ++ skipn (snd p + length l) (m (fst p))).

Definition separate (p q : ptr) (n : nat) : bool :=
  negb (fst p =? fst q) || (snd p + n <=? snd q) || (snd q + n <=? snd p).

Fixpoint copy_back {A : Type} (l : list (nat * nat)) (callee caller : nat -> A) : nat -> A :=
  match l with [] => caller | (x, y) :: l' => copy_back l' callee (upd caller x (callee y)) end.

Section Run.
(** Contents of local arrays: number of the array, size. *)
Variable U : nat -> nat -> bytes.

(** [None]: undefined behaviour (an access outside its block or misaligned, overlapping [memcpy]). *)
Definition outcome : Type := option (state * list event).
Definition emit (l : list event) (r : outcome) : outcome :=
  match r with Some (st, t) => Some (st, l ++ t) | None => None end.
Definition andthen (r : outcome) (f : state -> outcome) : outcome :=
  match r with Some (st, t) => emit t (f st) | None => None end.

Fixpoint loop (f : nat -> state -> outcome) (n i step : nat) (st : state) : outcome :=
  match n with O => Some (st, []) | S n' => andthen (f i st) (loop f n' (i + step) step) end.

Fixpoint run (s : stmt) (st : state) {struct s} : outcome :=
  let ie := ieval (iv st) in
  let de := deval (iv st) (dv st) in
  let pe := peval (iv st) (pv st) in
  match s with
  | Skip => Some (st, [])
  | Seq s1 s2 => andthen (run s1 st) (run s2)
  | ISet x e => Some (set_iv st (upd (iv st) x (ie e)), [])
  | DSet x e => Some (set_dv st (upd (dv st) x (de e)), [])
  | PSet a l => match pevals (iv st) (pv st) l with Some ps => Some (set_pv st (upd (pv st) a ps), []) | None => None end
  | Ld w x p =>
      match pe p with
      | Some q => if valid (mm st) w w q
                  then Some (set_dv st (upd (dv st) x (word_of (rdmem (mm st) q w))), [Access false q w]) else None
      | None => None
      end
  | St w p e =>
      match pe p with
      | Some q => if valid (mm st) w w q
                  then Some (set_mm st (wrmem (mm st) q (bytes_of_word w (de e))), [Access true q w]) else None
      | None => None
      end
  | MemCpy p q n =>
      match pe p, pe q with
      | Some d, Some s => if valid (mm st) (ie n) 1 d && valid (mm st) (ie n) 1 s && separate d s (ie n)
                          then Some (set_mm st (wrmem (mm st) d (rdmem (mm st) s (ie n))), [Access false s (ie n); Access true d (ie n)])
                          else None
      | _, _ => None
      end
  | MemSet p b n =>
      match pe p with
      | Some d => if valid (mm st) (ie n) 1 d then Some (set_mm st (wrmem (mm st) d (repeat b (ie n))), [Access true d (ie n)]) else None
      | None => None
      end
  | For x lo hi step body =>
      let n := (ie hi - ie lo + (step - 1)) / step in
      emit [Iterations n] (loop (fun i st => run body (set_iv st (upd (iv st) x i))) n (ie lo) step st)
  | If c s1 s2 =>
      match ceval (iv st) (pv st) c with
      | Some b => emit [Branch b] (if b then run s1 st else run s2 st)
      | None => None
      end
  | Loc a n body =>
      let new := nx st in
      match run body (mkState (iv st) (dv st) (upd (pv st) a [(new, 0)]) (upd (mm st) new (U (ct st) (ie n))) (S new) (S (ct st))) with
      | Some (st', t) => Some (mkState (iv st') (dv st') (upd (pv st') a (pv st a)) (upd (mm st') new []) new (ct st'), t)
      | None => None
      end
  | Call body ia da pa ir dr =>
      match pargevals (iv st) (pv st) pa with
      | Some ps =>
        match run body (mkState (args 0 (map ie ia)) (args 0%N (map de da)) (args [] ps) (mm st) (nx st) (ct st)) with
        | Some (st', t) => Some (mkState (copy_back ir (iv st') (iv st)) (copy_back dr (dv st') (dv st)) (pv st) (mm st') (nx st') (ct st'), t)
        | None => None
        end
      | None => None
      end
  | IfD e s1 s2 => emit [Shown (de e)] (if N.eqb (de e) 0 then run s2 st else run s1 st)
  | ToI x e => Some (set_iv st (upd (iv st) x (N.to_nat (de e))), [Shown (de e)])
  end.
End Run.

(** The program shows no data. *)
Fixpoint shows_nothing (s : stmt) : bool :=
  match s with
  | Skip | ISet _ _ | DSet _ _ | PSet _ _ | Ld _ _ _ | St _ _ _ | MemCpy _ _ _ | MemSet _ _ _ => true
  | Seq s1 s2 | If _ s1 s2 => shows_nothing s1 && shows_nothing s2
  | For _ _ _ _ s | Loc _ _ s | Call s _ _ _ _ _ => shows_nothing s
  | IfD _ _ _ | ToI _ _ => false
  end.

Declare Scope c_scope.
Delimit Scope c_scope with c.
Notation "s1 ;; s2" := (Seq s1 s2) (at level 61, right associativity) : c_scope.
