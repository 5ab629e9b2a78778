(** Property theorems: the hash functions (hash.c and sha3/). *)

From Coq Require Import List NArith Arith Bool Lia.
From Verif Require Import Base Params Env Spec Keccak KeccakSpec HashSpec HashProofs Witness BaseFacts.
Import ListNotations.

(** C33: HashInit on any context, HashUpdate for each chunk, HashFinal and HashSqueeze into each buffer
    fill the buffers with consecutive pieces of the FIPS 202 SHAKE output on the prefix followed by the
    concatenated chunks.  [all_fit] restricts the chunks of about 4 GiB or more (see
    [C33_long_chunk_refuted]).  The fuel bounds the loops of SpongeAbsorb and SpongeSqueeze. *)
Theorem C33_incremental_hash : forall fuel ctx P prefix chunks bufs,
  match prefix with Some b => byte b | None => True end ->
  Forall bytes_ok chunks -> all_fit (rate_bytes P) (length (prefix_bytes prefix)) chunks -> Forall short bufs ->
  1 < fuel -> Forall (fun c => length c < fuel) chunks -> Forall (fun c => length c < fuel) bufs ->
  exists ds, hash_session fuel ctx P prefix chunks bufs = Ok ds /\
    map (@length N) ds = map (@length N) bufs /\
    concat ds = shake (use_shake128 P) (prefix_bytes prefix ++ concat chunks) (length (concat bufs)).
Proof. exact session_ok. Qed.
Print Assumptions C33_incremental_hash.

(** Two chunkings of one message, the second across the rate boundary. *)
Example C33_example : exists P, get_param_set Picnic_L1_FS = Some P /\
  let c1 := [repeat 7%N 30; []; repeat 9%N 300] in let c2 := [repeat 7%N 30 ++ repeat 9%N 150; repeat 9%N 150] in
  let bufs := [zeros 5; zeros 300] in
  concat c1 = concat c2 /\
  Forall bytes_ok c1 /\ Forall bytes_ok c2 /\ all_fit (rate_bytes P) 1 c1 /\ all_fit (rate_bytes P) 1 c2 /\
  Forall short bufs /\ Forall (fun c => length c < 400) (c1 ++ c2 ++ bufs).
Proof.
  destruct (get_param_set Picnic_L1_FS) as [P|] eqn:HP; [|discriminate HP]. exists P.
  injection HP as <-. split; [reflexivity|]. cbv zeta.
  assert (S : forall b : bytes, length b < 400 -> short b) by (intros b Hb; unfold short; lia).
  split; [reflexivity|].
  split; [repeat constructor|]. split; [repeat constructor|].
  split; [apply short_all_fit; [vm_compute; lia|vm_compute; lia|]; repeat constructor; apply S; vm_compute; lia|].
  split; [apply short_all_fit; [vm_compute; lia|vm_compute; lia|]; repeat constructor; apply S; vm_compute; lia|].
  split; [repeat constructor; apply S; vm_compute; lia|].
  repeat constructor; vm_compute; lia.
Qed.

(** The same for one output, in terms of [hash], the abstract hash the other models use. *)
Theorem C33_hash_model : forall E fuel ctx P prefix chunks buf,
  match prefix with Some b => byte b | None => True end ->
  Forall bytes_ok chunks -> Forall short chunks -> short buf ->
  1 < fuel -> Forall (fun c => length c < fuel) chunks -> length buf < fuel ->
  hash_session fuel ctx P prefix chunks [buf] = Ok [hash (with_shake E) P prefix chunks (length buf)].
Proof. exact session_hash. Qed.
Print Assumptions C33_hash_model.

(** SHAKE meets the hypothesis on the hash function in the theorems about keys and signatures. *)
Theorem C33_shake_environment : forall E, env_bytes_ok E -> env_bytes_ok (with_shake E).
Proof. exact shake_env. Qed.
Print Assumptions C33_shake_environment.

Example C33_environment_example : env_bytes_ok (toy_env) /\ env_bytes_ok (with_shake (toy_env)).
Proof.
  assert (H : env_bytes_ok (toy_env)) by (exact toy_env_bytes).
  exact (conj H (C33_shake_environment _ H)).
Qed.

(** The permutation of the code is the Keccak-f[1600] of FIPS 202. *)
Theorem C33_permutation : forall s, bytes_ok s -> length s = 200 ->
  exists s', SnP_Permute s = Ok s' /\ bytes_bits s' = keccak_f (bytes_bits s).
Proof. exact permute_thm. Qed.
Print Assumptions C33_permutation.

(** C33 is false without the restriction on long chunks: a chunk that does not fit makes the code write
    past the sponge state ([UB]) or loop for ever ([NoFuel] whatever the fuel). *)
Theorem C33_long_chunk_refuted : forall fuel ctx P prefix chunks c more bufs,
  match prefix with Some b => byte b | None => True end ->
  Forall bytes_ok chunks -> all_fit (rate_bytes P) (length (prefix_bytes prefix)) chunks ->
  1 < fuel -> Forall (fun c => length c < fuel) chunks ->
  let k := length (prefix_bytes prefix ++ concat chunks) mod rate_bytes P in
  (N.of_nat (length c) < 2 ^ 61)%N -> ~ fits (rate_bytes P) k c ->
  hash_session fuel ctx P prefix (chunks ++ c :: more) bufs =
  if (2 ^ 32 <=? N.of_nat (length c) mod 2 ^ 32 + N.of_nat k)%N then UB else NoFuel.
Proof. exact session_long. Qed.
Print Assumptions C33_long_chunk_refuted.

(** C35 (and C01, C02, C15 for the signer): signing starts with the hash of the secret key, the message, the
    ciphertext, the plaintext and the state size (picnic_impl.c:854-859, picnic3_impl.c:736-741).  For
    message lengths from 2^32 - stateSizeBytes to 2^32 - 1 this hash writes past the sponge state, and for
    2^32 it does not end. *)
Theorem C35_long_message_refuted : forall p P fuel ctx sk msg more bufs,
  get_param_set p = Some P -> bytes_ok sk -> length sk = stateSizeBytes P -> 200 < fuel ->
  let len := N.of_nat (length msg) in let n := N.of_nat (stateSizeBytes P) in
  ((2 ^ 32 <= len + n /\ len < 2 ^ 32)%N ->
     hash_session fuel ctx P HASH_PREFIX_NONE (sk :: msg :: more) bufs = UB) /\
  (len = (2 ^ 32)%N -> hash_session fuel ctx P HASH_PREFIX_NONE (sk :: msg :: more) bufs = NoFuel).
Proof. exact sign_hash_long. Qed.
Print Assumptions C35_long_message_refuted.

Example C35_long_message_example : exists P sk msg,
  get_param_set Picnic3_L5 = Some P /\ bytes_ok sk /\ length sk = stateSizeBytes P /\
  (2 ^ 32 <= N.of_nat (length msg) + N.of_nat (stateSizeBytes P) /\ N.of_nat (length msg) < 2 ^ 32)%N /\
  ~ fits (rate_bytes P) (length sk mod rate_bytes P) msg.
Proof.
  destruct (get_param_set Picnic3_L5) as [P|] eqn:HP; [|discriminate HP].
  assert (M : exists msg : bytes, N.of_nat (length msg) = (2 ^ 32 - 1)%N).
  { exists (repeat 0%N (N.to_nat (2 ^ 32 - 1))). rewrite repeat_length. apply N2Nat.id. }
  destruct M as [msg L]. exists P, (zeros (stateSizeBytes P)), msg.
  destruct (key_position _ P HP) as [Hn Hm].
  split; [reflexivity|]. split; [apply bytes_ok_zeros|]. split; [apply length_zeros|].
  split; [rewrite L; clear - Hn; lia|].
  intros [_ F]. rewrite L, length_zeros, Hm in F. change ((2 ^ 32 - 1) mod 2 ^ 32)%N with (2 ^ 32 - 1)%N in F.
  clear - F Hn. lia.
Qed.
