(** Vocabulary for the Picnic3 properties. *)

From Coq Require Import List NArith Arith Bool.
From Verif Require Import Base Params Env Spec Tree Picnic3 Api ApiSpec.
Import ListNotations.

(** A set of random tapes: one per party, of the size used by the code. *)
Definition tapes_wf (P : paramset) (tl : list bytes) : Prop :=
  length tl = numMPCParties P /\ Forall (fun t => length t = p3_tapeSize P /\ bytes_ok t) tl.

(** A challenge: u different rounds, and a party for each. *)
Definition chal3_wf (P : paramset) (C L : list nat) : Prop :=
  NoDup C /\ length C = numOpenedRounds P /\ Forall (fun t => t < numMPCRounds P) C /\
  length L = numOpenedRounds P /\ Forall (fun v => v < numMPCParties P) L.

(** Unused bits of the last byte of a string holding one bit per AND gate. *)
Definition gate_padding_zero (P : paramset) (b : bytes) : Prop :=
  forall i, 3 * numRounds P * numSboxes P <= i < 8 * andSizeBytes P -> bit b i = false.

(** Fields of the proof for a round in which party [v] stays unopened. *)
Definition proof2_wf (P : paramset) (v : nat) (q : proof2) : Prop :=
  length (q_seedInfo q) = 4 * seedSizeBytes P /\
  length (q_input q) = stateSizeBytes P /\ bytes_ok (q_input q) /\
  length (q_msgs q) = andSizeBytes P /\ bytes_ok (q_msgs q) /\ gate_padding_zero P (q_msgs q) /\
  length (q_C q) = digestSizeBytes P /\
  length (q_aux q) = andSizeBytes P /\
  (if v =? 15 then q_aux q = zeros (andSizeBytes P) else gate_padding_zero P (q_aux q)).

(** Number of bytes of the encoding of such a proof. *)
Definition proof2_len (P : paramset) (v : nat) : nat :=
  4 * seedSizeBytes P + (if v =? 15 then 0 else andSizeBytes P) + stateSizeBytes P + andSizeBytes P
  + digestSizeBytes P.

(** A signature structure whose challenge is the one derived from its challenge hash and whose fields
    have the sizes required for this challenge. *)
Definition sig2_wf (E : env) (P : paramset) (fuel : nat) (s : signature2) : Prop :=
  let T := numMPCRounds P in
  length (g_salt s) = saltSizeBytes P /\ length (g_challengeHash s) = digestSizeBytes P /\
  expandChallengeHash E P fuel (g_challengeHash s) = Ok (g_challengeC s, g_challengeP s) /\
  revealSeedsSize P T (g_challengeC s) = Ok (length (g_iSeedInfo s)) /\
  openMerkleTreeSize P T (filter (fun t => negb (existsb (Nat.eqb t) (g_challengeC s))) (seq 0 T))
    = Ok (length (g_cvInfo s)) /\
  length (g_proofs s) = T /\
  (forall k t v, nth_error (g_challengeC s) k = Some t -> nth_error (g_challengeP s) k = Some v ->
     exists q, nth_error (g_proofs s) t = Some (Some q) /\ proof2_wf P v q) /\
  (forall t, t < T -> ~ In t (g_challengeC s) -> nth_error (g_proofs s) t = Some None).

(** Length of the encoding. *)
Definition sig2_len (P : paramset) (s : signature2) : nat :=
  digestSizeBytes P + saltSizeBytes P + length (g_iSeedInfo s) + length (g_cvInfo s)
  + list_sum (map (proof2_len P) (g_challengeP s)).
