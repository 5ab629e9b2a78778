(** The situation in which a round of ZKB++ verification runs, and what it leaves. *)

From Coq Require Import List NArith Arith Bool.
From Verif Require Import Base Params Env Spec Picnic1 MiniC CodeSpec HashSpec CodeKeccakSpec CodeZkbSpec CodeHashUses.
Import ListNotations.

Section Spec.
Variable P : paramset.
(** The buffers, numbered: 0 the temporary buffer, 1-2 the tapes, then, for the two opened views, input shares 3-4,
    communicated bits 5-6 and output shares 7-8; three commitments 9-11, the third output share 12 and, for Unruh's
    transform, three values of G 13-15. Sizes: picnic_impl.c:631, 640 and picnic_types.c:36-38, 48-63, 221, 351. *)
Definition ver_count : nat := if is_UR (transf P) then 16 else 13.
Definition ver_size (i : nat) : nat :=
  match i with
  | 0 => Nat.max (6 * stateSizeBytes P) (stateSizeBytes P + andSizeBytes P)
  | 1 | 2 => 2 * andSizeBytes P
  | 3 | 4 | 7 | 8 | 12 => stateSizeBytes P
  | 5 | 6 => andSizeBytes P
  | 9 | 10 | 11 => digestSizeBytes P
  | _ => UnruhGWithInputBytes P
  end.
Definition round_writes (q : nat -> ptr) : list (ptr * nat) := map (fun i => (q i, ver_size i)) (seq 0 ver_count).

(** Seeds of the two opened views. *)
Definition proof_seed (pr : proof) (e : nat) : bytes := if e =? 0 then p_seed1 pr else p_seed2 pr.

(** A read-only object of [k] bytes (or more) to which variable [a] points. *)
Definition given (st : state) (q : nat -> ptr) (a : nat) (l : bytes) : Prop := exists p, pv st a = [p] /\ reads st (round_writes q) p l.

(** The caller: buffer [i] is at [q i]; the views have just been allocated with calloc. The fields of the proof have the
    sizes with which they are allocated. Pointer variables as in CodeVerRound. *)
Record round_call (E : env) (st : state) (q : nat -> ptr) (ch : nat) (pr : proof) (salt pub pt : bytes) : Prop := {
  rc_apart : apart (round_writes q);
  rc_room : forall i, i < ver_count -> exists l, holds st (q i) l /\ length l = ver_size i;
  rc_calloc : forall i, 3 <= i < 9 -> holds st (q i) (zeros (ver_size i));
  rc_align : aligned (q 0) /\ aligned (q 3) /\ aligned (q 4) /\ aligned (q 7) /\ aligned (q 8) /\ aligned (q 12);
  rc_challenge : iv st 1 = ch /\ ch < 3;
  rc_bufs : pv st 0 = [q 1; q 2] /\ pv st 1 = [q 3; q 4] /\ pv st 2 = [q 5; q 6] /\ pv st 3 = [q 7; q 8] /\ pv st 5 = [q 0] /\
    pv st 14 = [q 9; q 10; q 11] /\ (is_UR (transf P) = true -> pv st 15 = [q 13; q 14; q 15]) /\ pv st 19 = [q 12];
  rc_pt : exists p, pv st 4 = [p] /\ reads st (round_writes q) p pt /\ aligned p /\ length pt = 4 * stateSizeWords P;
  rc_K : constants st 6 (numRounds P + 1) (KMatrix E P) (round_writes q);
  rc_L : constants st 7 (numRounds P) (LMatrix E P) (round_writes q);
  rc_C : constants st 8 (numRounds P) (RConstant E P) (round_writes q);
  rc_rc : exists p, pv st 9 = [p] /\ reads st (round_writes q) p round_constant_bytes /\ snd p mod 8 = 0;
  rc_seeds : exists p, pv st 10 = for2 p /\ forall e, e < 2 -> reads st (round_writes q) (p e) (proof_seed pr e) /\ length (proof_seed pr e) = seedSizeBytes P;
  rc_salt : given st q 11 salt /\ length salt = saltSizeBytes P;
  rc_input : given st q 12 (p_inputShare pr) /\ length (p_inputShare pr) = stateSizeBytes P;
  rc_pub : exists p, pv st 13 = [p] /\ reads st (round_writes q) p pub /\ aligned p /\ stateSizeBytes P <= length pub;
  rc_comm : given st q 16 (p_communicatedBits pr) /\ length (p_communicatedBits pr) = andSizeBytes P;
  rc_commit : given st q 17 (p_view3Commitment pr) /\ length (p_view3Commitment pr) = digestSizeBytes P;
  rc_G : is_UR (transf P) = true -> given st q 18 (p_view3UnruhG pr) /\ length (p_view3UnruhG pr) = UnruhGWithInputBytes P
}.

(** What a round leaves: outputs of the parties (those of the opened views, and the third), commitments and G. *)
Definition round_leaves (st : state) (q : nat -> ptr) (ch : nat) (vo cm gs : tri bytes) : Prop :=
  let at_ i l := pts (nx st) (mm st) (q i) l in
  at_ 7 (tget vo ch) /\ at_ 8 (tget vo ((ch + 1) mod 3)) /\ at_ 12 (tget vo ((ch + 2) mod 3)) /\
  (forall j, j < 3 -> at_ (9 + j) (tget cm j)) /\
  (is_UR (transf P) = true -> forall j, j < 3 -> at_ (13 + j) (firstn (G_bytes P j) (tget gs j))).
End Spec.
