(** The situation in which ZKB++ signing runs on memory, and what it leaves. *)

From Coq Require Import List NArith Arith Bool.
From Verif Require Import Base Params Env Spec Picnic1 MiniC CodeSpec HashSpec CodeKeccakSpec CodeZkbSpec CodeHashUses CodeSignSpec.
Import ListNotations.

Section Spec.
Variable P : paramset.
Let T := numMPCRounds P.
(** The buffers, numbered: first those of the rounds (CodeSignSpec), then the seeds, then those of the signature: the
    salt, the challenge, and for each round two seeds, an input share, communicated bits, a commitment and, for Unruh's
    transform, a value of G. *)
Definition inner : nat := round_at P T.
Definition proof_bufs : nat := if is_UR (transf P) then 6 else 5.
Definition proof_at (k e : nat) : nat := inner + 3 + proof_bufs * k + e.
Definition signer_count : nat := inner + 3 + proof_bufs * T.
Definition proof_size (e : nat) : nat :=
  match e with 0 | 1 => seedSizeBytes P | 2 => stateSizeBytes P | 3 => andSizeBytes P | 4 => digestSizeBytes P | _ => UnruhGWithInputBytes P end.
(** Sizes: picnic_types.c:95-108, 138-147, 175. *)
Definition signer_size (i : nat) : nat :=
  if i <? inner then sign_size P i
  else if i =? inner then seedSizeBytes P * (3 * T) + saltSizeBytes P
  else if i =? inner + 1 then saltSizeBytes P
  else if i =? inner + 2 then numBytes (2 * T)
  else proof_size ((i - (inner + 3)) mod proof_bufs).
Definition signer_writes (q : nat -> ptr) : list (ptr * nat) := map (fun i => (q i, signer_size i)) (seq 0 signer_count).

(** The caller, after the allocations of [sign_picnic1]: buffer [i] is at [q i]; views come from calloc; keys, plaintext
    and message lie outside of all buffers. Pointer variables as in CodeSignAll. *)
Record signer_call (E : env) (st : state) (q : nat -> ptr) (sk pub pt msg : bytes) : Prop := {
  sg_apart : apart (signer_writes q);
  sg_room : forall i, i < signer_count -> exists l, holds st (q i) l /\ length l = signer_size i;
  sg_calloc : forall k j, k < T -> j < 9 -> holds st (q (round_at P k + j)) (zeros (kind_size P j));
  sg_align : aligned (q 0) /\ forall k j, k < T -> j < 9 -> aligned (q (round_at P k + j));
  sg_tapes : pv st 0 = [q 1; q 2; q 3];
  sg_views : forall k j, k < T -> j < 3 ->
    nth_error (pv st 1) (3 * k + j) = Some (q (round_at P k + j)) /\
    nth_error (pv st 2) (3 * k + j) = Some (q (round_at P k + (3 + j))) /\
    nth_error (pv st 3) (3 * k + j) = Some (q (round_at P k + (6 + j)));
  sg_pt : exists p, pv st 4 = [p] /\ reads st (signer_writes q) p pt /\ aligned p /\ length pt = 4 * stateSizeWords P;
  sg_tmp : pv st 5 = [q 0];
  sg_K : constants st 6 (numRounds P + 1) (KMatrix E P) (signer_writes q);
  sg_L : constants st 7 (numRounds P) (LMatrix E P) (signer_writes q);
  sg_C : constants st 8 (numRounds P) (RConstant E P) (signer_writes q);
  sg_rc : exists p, pv st 9 = [p] /\ reads st (signer_writes q) p round_constant_bytes /\ snd p mod 8 = 0;
  sg_seeds : pv st 20 = [q inner] /\
    forall k j, k < T -> j < 3 -> nth_error (pv st 10) (3 * k + j) = Some (fst (q inner), snd (q inner) + (3 * k + j) * seedSizeBytes P);
  sg_salt : pv st 11 = [q (inner + 1)];
  sg_chal : pv st 23 = [q (inner + 2)];
  sg_sk : exists p, pv st 12 = [p] /\ reads st (signer_writes q) p sk /\ aligned p /\ stateSizeBytes P <= length sk /\ 4 * stateSizeWords P <= length sk /\ short sk;
  sg_pub : exists p, pv st 13 = [p] /\ reads st (signer_writes q) p pub /\ stateSizeBytes P <= length pub /\ short pub;
  sg_msg : exists p, pv st 22 = [p] /\ reads st (signer_writes q) p msg /\ short msg;
  sg_commits : forall k j, k < T -> j < 3 ->
    nth_error (pv st 14) (3 * k + j) = Some (q (round_at P k + (9 + j))) /\
    (is_UR (transf P) = true -> nth_error (pv st 15) (3 * k + j) = Some (q (round_at P k + (12 + j))));
  sg_proofs : forall k e, k < T -> e < proof_bufs -> nth_error (pv st 24) (proof_bufs * k + e) = Some (q (proof_at k e))
}.

(** The parts of the proof of round [k] that go into the encoded signature: the input share only for challenges 1 and 2,
    and of the value of G as many bytes as were computed. *)
Definition G_bytes (ch : nat) : nat := if ch =? 0 then UnruhGWithInputBytes P else UnruhGWithoutInputBytes P.
Definition proof_stored (st : state) (q : nat -> ptr) (k ch : nat) (pr : proof) : Prop :=
  let at_ e n l := holds st (q (proof_at k e)) l /\ length l = n in
  at_ 0 (seedSizeBytes P) (p_seed1 pr) /\ at_ 1 (seedSizeBytes P) (p_seed2 pr) /\ (ch <> 0 -> at_ 2 (stateSizeBytes P) (p_inputShare pr)) /\
  at_ 3 (andSizeBytes P) (p_communicatedBits pr) /\ at_ 4 (digestSizeBytes P) (p_view3Commitment pr) /\
  (is_UR (transf P) = true -> at_ 5 (G_bytes ch) (firstn (G_bytes ch) (p_view3UnruhG pr))).
Definition signature_stored (st : state) (q : nat -> ptr) (s : signature) : Prop :=
  holds st (q (inner + 1)) (s_salt s) /\ holds st (q (inner + 2)) (s_challengeBits s) /\
  length (s_salt s) = saltSizeBytes P /\ length (s_challengeBits s) = numBytes (2 * T) /\
  forall k, k < T -> exists ch pr, getChallenge (s_challengeBits s) k = Ok ch /\ nth_error (s_proofs s) k = Some pr /\ proof_stored st q k ch pr.
End Spec.
