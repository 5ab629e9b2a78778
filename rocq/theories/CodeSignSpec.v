(** The situation in which the rounds of ZKB++ signing run, and what they leave. *)

From Coq Require Import List NArith Arith Bool.
From Verif Require Import Base Params Env Spec Picnic1 MiniC CodeSpec HashSpec CodeKeccakSpec CodeZkbSpec CodeHashUses.
Import ListNotations.

Section Spec.
Variable P : paramset.
(** The buffers, numbered: 0 the temporary buffer, 1-3 the tapes, then for each round three input shares, three
    strings of communicated bits, three output shares, three commitments and, for Unruh's transform, three values of G. *)
Definition per_round : nat := if is_UR (transf P) then 15 else 12.
Definition round_at (k : nat) : nat := 4 + per_round * k.
(** Their sizes: picnic_impl.c:888 and picnic_types.c:36-38, 48-63, 221, 351. *)
Definition kind_size (j : nat) : nat :=
  if j <? 3 then stateSizeBytes P else if j <? 6 then andSizeBytes P else if j <? 9 then stateSizeBytes P else
  if j <? 12 then digestSizeBytes P else UnruhGWithInputBytes P.
Definition sign_size (i : nat) : nat :=
  if i =? 0 then Nat.max (9 * stateSizeBytes P) (stateSizeBytes P + andSizeBytes P)
  else if i <? 4 then 2 * andSizeBytes P else kind_size ((i - 4) mod per_round).
Definition sign_writes (q : nat -> ptr) : list (ptr * nat) := map (fun i => (q i, sign_size i)) (seq 0 (round_at (numMPCRounds P))).

(** Seed [j] of round [k]. *)
Definition seed_kj (allSeeds : bytes) (k j : nat) : bytes := firstn (seedSizeBytes P) (skipn ((3 * k + j) * seedSizeBytes P) allSeeds).

(** The caller: buffer [i] is at [q i]; the views have just been allocated with calloc. Pointer variables as in CodeSign,
    with three entries for each round where a round has three. *)
Record sign_call (E : env) (st : state) (q : nat -> ptr) (allSeeds salt sk pub pt : bytes) : Prop := {
  sc_apart : apart (sign_writes q);
  sc_room : forall i, i < round_at (numMPCRounds P) -> exists l, holds st (q i) l /\ length l = sign_size i;
  sc_calloc : forall k j, k < numMPCRounds P -> j < 9 -> holds st (q (round_at k + j)) (zeros (kind_size j));
  sc_align : aligned (q 0) /\ forall k j, k < numMPCRounds P -> j < 9 -> aligned (q (round_at k + j));
  sc_tapes : pv st 0 = [q 1; q 2; q 3];
  sc_views : forall k j, k < numMPCRounds P -> j < 3 ->
    nth_error (pv st 1) (3 * k + j) = Some (q (round_at k + j)) /\
    nth_error (pv st 2) (3 * k + j) = Some (q (round_at k + (3 + j))) /\
    nth_error (pv st 3) (3 * k + j) = Some (q (round_at k + (6 + j)));
  sc_pt : exists p, pv st 4 = [p] /\ reads st (sign_writes q) p pt /\ aligned p /\ length pt = 4 * stateSizeWords P;
  sc_tmp : pv st 5 = [q 0];
  sc_K : constants st 6 (numRounds P + 1) (KMatrix E P) (sign_writes q);
  sc_L : constants st 7 (numRounds P) (LMatrix E P) (sign_writes q);
  sc_C : constants st 8 (numRounds P) (RConstant E P) (sign_writes q);
  sc_rc : exists p, pv st 9 = [p] /\ reads st (sign_writes q) p round_constant_bytes /\ snd p mod 8 = 0;
  sc_seeds : exists p, reads st (sign_writes q) p allSeeds /\ 3 * numMPCRounds P * seedSizeBytes P <= length allSeeds /\
    forall k j, k < numMPCRounds P -> j < 3 -> nth_error (pv st 10) (3 * k + j) = Some (fst p, snd p + (3 * k + j) * seedSizeBytes P);
  sc_salt : exists p, pv st 11 = [p] /\ reads st (sign_writes q) p salt /\ length salt = saltSizeBytes P;
  sc_sk : exists p, pv st 12 = [p] /\ reads st (sign_writes q) p sk /\ aligned p /\ stateSizeBytes P <= length sk;
  sc_pub : exists p, pv st 13 = [p] /\ reads st (sign_writes q) p pub /\ stateSizeBytes P <= length pub;
  sc_commits : forall k j, k < numMPCRounds P -> j < 3 ->
    nth_error (pv st 14) (3 * k + j) = Some (q (round_at k + (9 + j))) /\
    (is_UR (transf P) = true -> nth_error (pv st 15) (3 * k + j) = Some (q (round_at k + (12 + j))))
}.

(** What a round leaves for party [j]: view, commitment and, for Unruh's transform, the value of G. *)
Definition stored (st : state) (q : nat -> ptr) (k j : nat) (rd : round_data) : Prop :=
  let at_ i l := pts (nx st) (mm st) (q (round_at k + i)) l in
  at_ j (v_inputShare (tget (r_views rd) j)) /\ at_ (3 + j) (v_communicatedBits (tget (r_views rd) j)) /\
  at_ (6 + j) (v_outputShare (tget (r_views rd) j)) /\ at_ (9 + j) (tget (r_commits rd) j) /\
  (is_UR (transf P) = true -> at_ (12 + j) (firstn (G_bytes P j) (tget (r_gs rd) j))).
End Spec.
