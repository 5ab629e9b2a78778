(** The situation in which ZKB++ signatures are read from bytes, and verified, on memory. *)

From Coq Require Import List NArith Arith Bool.
From Verif Require Import Base Params Env Spec Picnic1 MiniC CodeSpec HashSpec CodeKeccakSpec CodeZkbSpec CodeHashUses CodeVerRoundSpec CodeVerAllSpec.
Import ListNotations.

Section Spec.
Variable P : paramset.
Let T := numMPCRounds P.
(** The buffers of a signature, numbered: 0 salt, 1 challengeBits, then those of proofs[0], those of proofs[1], and so on:
    seed1, seed2, inputShare, communicatedBits, view3Commitment and, with Unruh's transform, view3UnruhG. *)
Definition parts : nat := if is_UR (transf P) then 6 else 5.
Definition part_at (k e : nat) : nat := 2 + parts * k + e.
Definition sig_count : nat := 2 + parts * T.
(** Sizes: picnic_types.c:95-108, 138-147. *)
Definition part_size (e : nat) : nat :=
  match e with 0 | 1 => seedSizeBytes P | 2 => stateSizeBytes P | 3 => andSizeBytes P | 4 => digestSizeBytes P | _ => UnruhGWithInputBytes P end.
Definition sig_size (j : nat) : nat :=
  if j =? 0 then saltSizeBytes P else if j =? 1 then numBytes (2 * T) else part_size ((j - 2) mod parts).
Definition sig_writes (g : nat -> ptr) : list (ptr * nat) := map (fun j => (g j, sig_size j)) (seq 0 sig_count).
Definition proof_part (pr : proof) (e : nat) : bytes :=
  match e with 0 => p_seed1 pr | 1 => p_seed2 pr | 2 => p_inputShare pr | 3 => p_communicatedBits pr | 4 => p_view3Commitment pr | _ => p_view3UnruhG pr end.

(** [l] in a buffer of its size. *)
Definition filled (st : state) (p : ptr) (n : nat) (l : bytes) : Prop := holds st p l /\ length l = n.
(** The buffers hold the signature [s]. *)
Definition signature_held (st : state) (g : nat -> ptr) (s : signature) : Prop :=
  filled st (g 0) (saltSizeBytes P) (s_salt s) /\ filled st (g 1) (numBytes (2 * T)) (s_challengeBits s) /\
  length (s_proofs s) = T /\
  forall k, k < T -> exists pr, nth_error (s_proofs s) k = Some pr /\
    forall e, e < parts -> filled st (g (part_at k e)) (part_size e) (proof_part pr e).
(** The buffers as allocated: what [E] says uninitialised memory holds is what they hold. *)
Record fresh_signature (E : env) (st : state) (g : nat -> ptr) : Prop := {
  fs_apart : apart (sig_writes g);
  fs_salt : exists l, filled st (g 0) (saltSizeBytes P) l;
  fs_chal : exists l, filled st (g 1) (numBytes (2 * T)) l;
  fs_parts : forall k e, k < T -> e < parts -> filled st (g (part_at k e)) (part_size e) (proof_part (allocateProof E P site_vproof k) e)
}.

(** The caller of deserializeSignature with the signature [sg], at [ps]. *)
Record deserialize_call (E : env) (st : state) (g : nat -> ptr) (ps : ptr) (sg : bytes) : Prop := {
  de_fresh : fresh_signature E st g;
  de_len : iv st 0 = length sg;
  de_sig : pv st 0 = [ps] /\ reads st (sig_writes g) ps sg;
  de_chal : pv st 1 = [g 1];
  de_salt : pv st 2 = [g 0];
  de_proofs : forall k e, k < T -> e < parts -> nth_error (pv st 3) (parts * k + e) = Some (g (part_at k e))
}.

(** The caller of picnic_verify with the public key ([pub], [pt]), the message [msg] and the signature [sg], after the
    allocations of picnic_verify and of verify. Everything only read lies outside of [ws], the memory allocated. *)
Definition allocated (q g : nat -> ptr) : list (ptr * nat) := verify_writes P q ++ sig_writes g.
Record received_call (E : env) (st : state) (q g : nat -> ptr) (ps : ptr) (sg pub pt msg : bytes) : Prop := {
  rc_apart : apart (allocated q g);
  rc_fresh : fresh_signature E st g;
  rc_len : iv st 10 = length sg;
  rc_sig : pv st 25 = [ps] /\ reads st (sig_writes g) ps sg;
  rc_room : forall j, j < all_count P -> exists l, holds st (q j) l /\ length l = all_size P j;
  rc_calloc : forall x k, 3 <= x < 9 -> k < T -> holds st (q (place P x k)) (zeros (ver_size P x));
  rc_align : aligned (q 0) /\ forall k, k < T -> aligned (q (place P 3 k)) /\ aligned (q (place P 4 k)) /\ aligned (q (place P 7 k)) /\ aligned (q (place P 8 k));
  rc_slab : exists s, pv st 19 = [s] /\ aligned s /\ forall k, k < T -> q (place P 12 k) = (fst s, snd s + k * stateSizeBytes P);
  rc_shared : pv st 0 = [q 1; q 2] /\ pv st 5 = [q 0];
  rc_bufs : forall k, k < T ->
    (forall e, e < 2 -> buffer st q 1 (2 * k + e) (place P (3 + e) k) /\ buffer st q 2 (2 * k + e) (place P (5 + e) k) /\ buffer st q 3 (2 * k + e) (place P (7 + e) k)) /\
    (forall j, j < 3 -> buffer st q 14 (3 * k + j) (place P (9 + j) k) /\ (is_UR (transf P) = true -> buffer st q 15 (3 * k + j) (place P (13 + j) k)));
  rc_pt : exists p, pv st 4 = [p] /\ reads st (allocated q g) p pt /\ aligned p /\ length pt = 4 * stateSizeWords P;
  rc_K : constants st 6 (numRounds P + 1) (KMatrix E P) (allocated q g);
  rc_L : constants st 7 (numRounds P) (LMatrix E P) (allocated q g);
  rc_C : constants st 8 (numRounds P) (RConstant E P) (allocated q g);
  rc_rc : exists p, pv st 9 = [p] /\ reads st (allocated q g) p round_constant_bytes /\ snd p mod 8 = 0;
  rc_pub : exists p, pv st 13 = [p] /\ reads st (allocated q g) p pub /\ aligned p /\ stateSizeBytes P <= length pub /\ short pub;
  rc_msg : exists p, pv st 22 = [p] /\ reads st (allocated q g) p msg /\ short msg;
  rc_proofs : forall k e, k < T -> e < parts -> nth_error (pv st 24) (parts * k + e) = Some (g (part_at k e));
  rc_views : pv st 11 = [g 0] /\ pv st 20 = [g 1] /\ forall k, k < T ->
    (forall e, e < 2 -> nth_error (pv st 10) (2 * k + e) = Some (g (part_at k e))) /\
    nth_error (pv st 12) k = Some (g (part_at k 2)) /\ nth_error (pv st 16) k = Some (g (part_at k 3)) /\
    nth_error (pv st 17) k = Some (g (part_at k 4)) /\ (is_UR (transf P) = true -> nth_error (pv st 18) k = Some (g (part_at k 5)))
}.
End Spec.
