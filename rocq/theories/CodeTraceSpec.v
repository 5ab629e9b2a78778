(** What can be observed of ZKB++ signing, computed without the signing key. *)

From Coq Require Import List NArith Arith Bool.
From Verif Require Import Base Params Env LowMC Picnic1 MiniC CodeSignAll Hint ZkbRound ZkbChal ZkbTop ZkbProps.
Import ListNotations.

(** Index variables, pointers and the numbers of blocks and local arrays in use: everything in a state but data. *)
Record placement : Type := mkPlacement { pl_iv : nat -> nat; pl_pv : nat -> list ptr; pl_nx : nat; pl_ct : nat }.
Definition place (st : state) : placement := mkPlacement (iv st) (pv st) (nx st) (ct st).

Definition simulated : Type := (placement * list event * list N)%type.
Fixpoint sim_loop (f : nat -> placement -> list N -> simulated) (n i step : nat) (a : placement) (sh : list N) : simulated :=
  match n with
  | O => (a, [], sh)
  | S n' => let '(a1, t1, s1) := f i a sh in let '(a2, t2, s2) := sim_loop f n' (i + step) step a1 s1 in (a2, t1 ++ t2, s2)
  end.

(** The run without memory contents and data variables; [sh] is the data it shows, first to last. The result is where
    everything lies afterwards, the trace and the part of [sh] not used. *)
Fixpoint sim (s : stmt) (a : placement) (sh : list N) {struct s} : simulated :=
  let i := pl_iv a in
  let p := pl_pv a in
  let ie := ieval i in
  let pe e := match peval i p e with Some q => q | None => (0, 0) end in
  match s with
  | Skip | DSet _ _ => (a, [], sh)
  | Seq s1 s2 => let '(a1, t1, h1) := sim s1 a sh in let '(a2, t2, h2) := sim s2 a1 h1 in (a2, t1 ++ t2, h2)
  | ISet x e => (mkPlacement (upd i x (ie e)) p (pl_nx a) (pl_ct a), [], sh)
  | PSet x l => (mkPlacement i (upd p x (match pevals i p l with Some ps => ps | None => [] end)) (pl_nx a) (pl_ct a), [], sh)
  | Ld w x e => (a, [Access false (pe e) w], sh)
  | St w e _ => (a, [Access true (pe e) w], sh)
  | MemCpy d s n => (a, [Access false (pe s) (ie n); Access true (pe d) (ie n)], sh)
  | MemSet d b n => (a, [Access true (pe d) (ie n)], sh)
  | For x lo hi step body =>
      let n := (ie hi - ie lo + (step - 1)) / step in
      let '(a1, t1, h1) := sim_loop (fun k b => sim body (mkPlacement (upd (pl_iv b) x k) (pl_pv b) (pl_nx b) (pl_ct b))) n (ie lo) step a sh in
      (a1, Iterations n :: t1, h1)
  | If c s1 s2 =>
      let b := match ceval i p c with Some b => b | None => false end in
      let '(a1, t1, h1) := if b then sim s1 a sh else sim s2 a sh in (a1, Branch b :: t1, h1)
  | Loc x n body =>
      let '(a1, t1, h1) := sim body (mkPlacement i (upd p x [(pl_nx a, 0)]) (S (pl_nx a)) (S (pl_ct a))) sh in
      (mkPlacement (pl_iv a1) (upd (pl_pv a1) x (p x)) (pl_nx a) (pl_ct a1), t1, h1)
  | Call body ia da pa ir dr =>
      let ps := match pargevals i p pa with Some ps => ps | None => [] end in
      let '(a1, t1, h1) := sim body (mkPlacement (args 0 (map ie ia)) (args [] ps) (pl_nx a) (pl_ct a)) sh in
      (mkPlacement (copy_back ir (pl_iv a1) i) p (pl_nx a1) (pl_ct a1), t1, h1)
  | IfD _ s1 s2 =>
      let d := hd 0%N sh in
      let '(a1, t1, h1) := if N.eqb d 0 then sim s2 a (tl sh) else sim s1 a (tl sh) in (a1, Shown d :: t1, h1)
  | ToI x _ => (mkPlacement (upd i x (N.to_nat (hd 0%N sh))) p (pl_nx a) (pl_ct a), [Shown (hd 0%N sh)], tl sh)
  end.

(** The bit pairs of the digests looked at when a challenge is computed, as a function of the first digest. *)
Section Shown.
Variables (E : env) (P : paramset).
Let T := numMPCRounds P.
(** From one digest: the pairs looked at, the number of trits found and whether that is enough. *)
Fixpoint scanned (pairs : list N) (r : nat) : list N * nat * bool :=
  match pairs with
  | [] => ([], r, false)
  | p :: ps =>
      if N.ltb p 3 then
        if S r =? numMPCRounds P then ([p], S r, true)
        else let '(l, r', d) := scanned ps (S r) in (p :: l, r', d)
      else let '(l, r', d) := scanned ps r in (p :: l, r', d)
  end.
Fixpoint expanded (fuel : nat) (h : bytes) (r : nat) : list N :=
  match fuel with
  | O => []
  | S f => let '(l, r', d) := scanned (bit_pairs h) r in l ++ (if (d : bool) then [] else expanded f (hash E P HASH_PREFIX_1 [h] (digestSizeBytes P)) r')
  end.


(** The digest the verifier computes from a signature. *)
Definition opened (s : signature) (k : nat) : opening :=
  match nth_error (s_proofs s) k with Some pr => opening_of P (chalv (s_challengeBits s) k) pr | None => mkOpening [] [] [] [] [] [] end.
Definition sig_digest (s : signature) (pub pt msg : bytes) : bytes :=
  chal_hash E P (ver_input E P (s_challengeBits s) (s_salt s) (opened s) pub pt msg).

(** The comparison of each round succeeds; the digests of the challenge; the challenges. *)
Definition sign_shown (fuel : nat) (s : signature) (pub pt msg : bytes) : list N :=
  repeat 0%N (T * (stateSizeBytes P + 1)) ++ expanded fuel (sig_digest s pub pt msg) 0 ++ map (fun k => N.of_nat (chalv (s_challengeBits s) k)) (seq 0 T).
(** The trace of signing, from where the objects lie, the signature, the public key, the plaintext and the message. *)
Definition sign_trace (fuel : nat) (a : placement) (s : signature) (pub pt msg : bytes) : list event :=
  snd (fst (sim (c_sign P (length msg) fuel) a (sign_shown fuel s pub pt msg))).
End Shown.
