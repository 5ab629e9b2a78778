(** Vocabulary for the signature properties. *)

From Coq Require Import List NArith Arith Bool.
From Verif Require Import Base Params Env Spec Picnic1 Api ApiSpec.
Import ListNotations.

(** The same hash function and constants with other contents of uninitialised memory. *)
Definition with_uninit (E : env) (u : nat -> nat -> nat -> bytes) : env :=
  mkEnv (xof E) u (LMatrix E) (LMatrixInv E) (KMatrix E) (KMatrixInv E) (RConstant E).

(** The call returns, or is still sampling challenges: no out-of-bounds access, no abort. *)
Definition safe {A} (r : res A) : Prop :=
  match r with Ok _ => True | NoFuel => True | _ => False end.

(** Two private keys with the same parameters and the same blocks. *)
Definition sk_same (P : paramset) (a b : privatekey) : Prop :=
  sk_params a = sk_params b /\ block P (sk_data a) = block P (sk_data b) /\
  block P (pk_plaintext (sk_pk a)) = block P (pk_plaintext (sk_pk b)) /\
  block P (pk_ciphertext (sk_pk a)) = block P (pk_ciphertext (sk_pk b)).

(** [k'] is a public key belonging to the private key [sk]. *)
Definition pk_of (P : paramset) (sk : privatekey) (pk : publickey) : Prop :=
  pk_params pk = sk_params sk /\
  block P (pk_plaintext pk) = block P (pk_plaintext (sk_pk sk)) /\
  block P (pk_ciphertext pk) = block P (pk_ciphertext (sk_pk sk)).

(** ** ZKB++ challenges and signatures *)

(** Trit [i] of a challenge string: bits 2i (low) and 2i+1 (high). *)
Definition trit_at (c : bytes) (i : nat) : nat :=
  (if bit c (2 * i) then 1 else 0) + (if bit c (2 * i + 1) then 2 else 0).

(** A well formed challenge: T trits, zero padding. *)
Definition challenge_wf (P : paramset) (c : bytes) : Prop :=
  length c = numBytes (2 * numMPCRounds P) /\ bytes_ok c /\
  (forall i, i < numMPCRounds P -> trit_at c i < 3) /\
  (forall k, 2 * numMPCRounds P <= k < 8 * length c -> bit c k = false).

(** Number of rounds whose challenge is 0. *)
Definition zero_rounds (P : paramset) (c : bytes) : nat :=
  length (filter (fun i => trit_at c i =? 0) (seq 0 (numMPCRounds P))).

(** Sizes of the fields of a proof structure for challenge [c]. *)
Definition proof_wf (P : paramset) (c : nat) (pr : proof) : Prop :=
  length (p_seed1 pr) = seedSizeBytes P /\ length (p_seed2 pr) = seedSizeBytes P /\
  length (p_inputShare pr) = stateSizeBytes P /\ bytes_ok (p_inputShare pr) /\
  length (p_communicatedBits pr) = andSizeBytes P /\ bytes_ok (p_communicatedBits pr) /\
  length (p_view3Commitment pr) = digestSizeBytes P /\
  length (p_view3UnruhG pr) = UnruhGWithInputBytes P.

(** Number of bytes of G that are transmitted. *)
Definition g_len (P : paramset) (c : nat) : nat :=
  if is_UR (transf P) then (if c =? 0 then UnruhGWithInputBytes P else UnruhGWithoutInputBytes P) else 0.

(** Two proofs for challenge [c] with the same transmitted fields. *)
Definition proof_same (P : paramset) (c : nat) (a b : proof) : Prop :=
  p_seed1 a = p_seed1 b /\ p_seed2 a = p_seed2 b /\
  p_communicatedBits a = p_communicatedBits b /\ p_view3Commitment a = p_view3Commitment b /\
  firstn (g_len P c) (p_view3UnruhG a) = firstn (g_len P c) (p_view3UnruhG b) /\
  (c <> 0 -> p_inputShare a = p_inputShare b).

Definition sig_struct_wf (P : paramset) (s : signature) : Prop :=
  length (s_challengeBits s) = numBytes (2 * numMPCRounds P) /\
  length (s_salt s) = saltSizeBytes P /\ length (s_proofs s) = numMPCRounds P /\
  forall i pr, nth_error (s_proofs s) i = Some pr ->
    trit_at (s_challengeBits s) i < 3 /\ proof_wf P (trit_at (s_challengeBits s) i) pr /\
    (trit_at (s_challengeBits s) i <> 0 -> padding_zero P (p_inputShare pr)).

Definition sig_same (P : paramset) (s s' : signature) : Prop :=
  s_challengeBits s = s_challengeBits s' /\ s_salt s = s_salt s' /\
  length (s_proofs s) = length (s_proofs s') /\
  forall i a b, nth_error (s_proofs s) i = Some a -> nth_error (s_proofs s') i = Some b ->
    proof_same P (trit_at (s_challengeBits s) i) a b.

(** ** Hash collisions *)

(** Two given different strings with the same hash value of digest length. *)
Definition collide (E : env) (P : paramset) (pre : option N) (x y : bytes) : Prop :=
  x <> y /\ hash E P pre [x] (digestSizeBytes P) = hash E P pre [y] (digestSizeBytes P).

(** The string committed to in a view commitment. *)
Definition view_string (E : env) (P : paramset) (seed : bytes) (v : view) : bytes :=
  hash E P HASH_PREFIX_4 [seed] (digestSizeBytes P) ++
  v_inputShare v ++ v_communicatedBits v ++ v_outputShare v.
