(** The situation in which ZKB++ verification runs on memory. *)

From Coq Require Import List NArith Arith Bool.
From Verif Require Import Base Params Env Spec Picnic1 MiniC CodeSpec HashSpec CodeKeccakSpec CodeZkbSpec CodeHashUses CodeVerRoundSpec.
Import ListNotations.

Section Spec.
Variable P : paramset.
Let T := numMPCRounds P.
(** The buffers, numbered: 0-2 the temporary buffer and the tapes, which all rounds share, then those of round 0, those of
    round 1, and so on. Buffer [x] (as in CodeVerRoundSpec) of round [k] has number [place x k]. *)
Definition per_round : nat := ver_count P - 3.
Definition place (x k : nat) : nat := if x <? 3 then x else 3 + per_round * k + (x - 3).
Definition all_count : nat := 3 + per_round * T.
Definition all_size (j : nat) : nat := if j <? 3 then ver_size P j else ver_size P (3 + (j - 3) mod per_round).
Definition verify_writes (q : nat -> ptr) : list (ptr * nat) := map (fun j => (q j, all_size j)) (seq 0 all_count).

(** Entry [i] of pointer variable [a] is a read-only object [l]. *)
Definition entry (st : state) (q : nat -> ptr) (a i : nat) (l : bytes) : Prop :=
  exists p, nth_error (pv st a) i = Some p /\ reads st (verify_writes q) p l.
(** Entry [i] of [a] is buffer [j]. *)
Definition buffer (st : state) (q : nat -> ptr) (a i j : nat) : Prop := nth_error (pv st a) i = Some (q j).

(** The caller, after the allocations of [verify]: views and memory for the third output shares (one block after the
    other, from [s]) come from calloc. The signature has the shape with which it is allocated, and its challenge no value
    3 (deserialization refuses others). Pointer variables as in CodeVerAll. *)
Record verify_call (E : env) (st : state) (q : nat -> ptr) (sg : signature) (pub pt msg : bytes) : Prop := {
  vw_apart : apart (verify_writes q);
  vw_room : forall j, j < all_count -> exists l, holds st (q j) l /\ length l = all_size j;
  vw_calloc : forall x k, 3 <= x < 9 -> k < T -> holds st (q (place x k)) (zeros (ver_size P x));
  vw_align : aligned (q 0) /\ forall k, k < T -> aligned (q (place 3 k)) /\ aligned (q (place 4 k)) /\ aligned (q (place 7 k)) /\ aligned (q (place 8 k));
  vw_slab : exists s, pv st 19 = [s] /\ aligned s /\ forall k, k < T -> q (place 12 k) = (fst s, snd s + k * stateSizeBytes P);
  vw_shared : pv st 0 = [q 1; q 2] /\ pv st 5 = [q 0];
  vw_bufs : forall k, k < T ->
    (forall e, e < 2 -> buffer st q 1 (2 * k + e) (place (3 + e) k) /\ buffer st q 2 (2 * k + e) (place (5 + e) k) /\ buffer st q 3 (2 * k + e) (place (7 + e) k)) /\
    (forall j, j < 3 -> buffer st q 14 (3 * k + j) (place (9 + j) k) /\ (is_UR (transf P) = true -> buffer st q 15 (3 * k + j) (place (13 + j) k)));
  vw_pt : exists p, pv st 4 = [p] /\ reads st (verify_writes q) p pt /\ aligned p /\ length pt = 4 * stateSizeWords P;
  vw_K : constants st 6 (numRounds P + 1) (KMatrix E P) (verify_writes q);
  vw_L : constants st 7 (numRounds P) (LMatrix E P) (verify_writes q);
  vw_C : constants st 8 (numRounds P) (RConstant E P) (verify_writes q);
  vw_rc : exists p, pv st 9 = [p] /\ reads st (verify_writes q) p round_constant_bytes /\ snd p mod 8 = 0;
  vw_salt : exists p, pv st 11 = [p] /\ reads st (verify_writes q) p (s_salt sg) /\ length (s_salt sg) = saltSizeBytes P;
  vw_pub : exists p, pv st 13 = [p] /\ reads st (verify_writes q) p pub /\ aligned p /\ stateSizeBytes P <= length pub /\ short pub;
  vw_chal : exists p, pv st 20 = [p] /\ reads st (verify_writes q) p (s_challengeBits sg) /\ length (s_challengeBits sg) = numBytes (2 * T);
  vw_msg : exists p, pv st 22 = [p] /\ reads st (verify_writes q) p msg /\ short msg;
  vw_trits : forall k, k < T -> exists ch, getChallenge (s_challengeBits sg) k = Ok ch /\ ch < 3;
  vw_proofs : forall k, k < T -> exists pr, nth_error (s_proofs sg) k = Some pr /\
    (forall e, e < 2 -> entry st q 10 (2 * k + e) (proof_seed pr e) /\ length (proof_seed pr e) = seedSizeBytes P) /\
    entry st q 12 k (p_inputShare pr) /\ length (p_inputShare pr) = stateSizeBytes P /\
    entry st q 16 k (p_communicatedBits pr) /\ length (p_communicatedBits pr) = andSizeBytes P /\
    entry st q 17 k (p_view3Commitment pr) /\ length (p_view3Commitment pr) = digestSizeBytes P /\
    (is_UR (transf P) = true -> entry st q 18 k (p_view3UnruhG pr) /\ length (p_view3UnruhG pr) = UnruhGWithInputBytes P)
}.
End Spec.
