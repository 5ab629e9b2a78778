(** C69: the default source of random bytes and key generation with it. *)

From Coq Require Import List NArith ZArith Arith Bool Lia.
From Verif Require Import Base Params Env Spec ApiSpec LowMC Api Rng RngSpec RngProofs ParamFacts Witness.
Import ListNotations.

(** Success is reported exactly if the system delivered all the bytes asked for; then the buffer holds them and nothing is
    left open. Nothing behind the bytes asked for is written. *)
Theorem C69_random_bytes : forall o w buf len w' r buf', len <= length buf -> random_bytes_default o w buf len = (w', r, buf') ->
  length buf' = length buf /\ skipn len buf' = skipn len buf /\ attempts w' = S (attempts w) /\
  (grants o w len -> r = 0%Z /\ firstn len buf' = firstn len (os_read o (attempts w) len) /\ opened w' = opened w) /\
  (~ grants o w len -> r <> 0%Z /\ opened w <= opened w' <= S (opened w)).
Proof. exact random_bytes_default_spec. Qed.
Print Assumptions C69_random_bytes.

(** Key generation succeeds exactly if both reads are granted. The secret key and the plaintext are then the bits of the
    first and of the second read, bit by bit, and no file is left open. *)
Theorem C69_keygen : forall E o w p P pk0 sk0, env_bytes_ok E -> get_param_set p = Some P -> constants_ok E P -> os_bytes_ok o ->
  let n := stateSizeBytes P in let w1 := mkProc (opened w) (S (attempts w)) in let w' := keygen_process o w p in
  exists r pk sk, picnic_keygen E (rng_of o w) p pk0 sk0 = Ok (r, pk, sk) /\
    (r = true <-> grants o w n /\ grants o w1 n) /\
    (r = true -> opened w' = opened w /\
       lowmc_relation E P (sk_data sk) (pk_plaintext pk) (pk_ciphertext pk) /\
       forall i, i < stateSizeBits P ->
         bit (sk_data sk) i = bit (os_read o (attempts w) n) i /\ bit (pk_plaintext pk) i = bit (os_read o (S (attempts w)) n) i).
Proof. exact keygen_default. Qed.
Print Assumptions C69_keygen.

(** A file stays open only after a read that was cut short. *)
Theorem C69_leak_only_if_short : forall o w p P, get_param_set p = Some P -> os_bytes_ok o ->
  let n := stateSizeBytes P in let w1 := mkProc (opened w) (S (attempts w)) in
  opened (keygen_process o w p) = opened w \/
  opened (keygen_process o w p) = S (opened w) /\ (cut_short o w n \/ grants o w n /\ cut_short o w1 n).
Proof. exact keygen_leaves_open. Qed.
Print Assumptions C69_leak_only_if_short.

(** Systems for the examples: one that delivers everything, one that delivers five bytes at most. *)
Definition full_os : os := mkOs 1024 (fun _ => false) (fun k n => map (fun i => N.modulo (N.of_nat (31 * k + 7 * i + 3)) 256) (seq 0 n)).
Definition short_os : os := mkOs 1024 (fun _ => false) (fun k n => firstn (Nat.min 5 (n - 1)) (os_read full_os k n)).

Lemma full_os_ok : os_bytes_ok full_os.
Proof. intros k n. apply Forall_forall. intros x Hx. apply in_map_iff in Hx. destruct Hx as (i & <- & _). apply N.mod_lt. discriminate. Qed.
Lemma short_os_ok : os_bytes_ok short_os.
Proof. intros k n. apply BaseFacts.Forall_firstn. apply full_os_ok. Qed.
Lemma short_os_starved : starved short_os.
Proof. split; [reflexivity|]. intros k n Hn. cbn [os_read short_os]. rewrite firstn_length. lia. Qed.

Example C69_example : grants full_os (mkProc 3 0) 17 /\ grants full_os (mkProc 3 1) 17 /\
  opened (keygen_process full_os (mkProc 3 0) Picnic3_L1) = 3 /\ attempts (keygen_process full_os (mkProc 3 0) Picnic3_L1) = 2 /\
  (exists b, random_bytes_default short_os (mkProc 3 0) (repeat 9%N 8) 7 = (mkProc 4 1, (-2)%Z, b) /\ nth 7 b 0%N = 9%N).
Proof.
  assert (G : forall k, grants full_os (mkProc 3 k) 17).
  { intros k. split; [apply Nat.ltb_lt; vm_compute; reflexivity|]. split; [reflexivity|]. cbn [os_read full_os attempts]. rewrite map_length, seq_length. lia. }
  split; [apply G|]. split; [apply G|]. split; [vm_compute; reflexivity|]. split; [vm_compute; reflexivity|].
  eexists. split; vm_compute; reflexivity.
Qed.

(** It is not so that every key generation closes what it opened. *)
Theorem C69_closes_refuted : ~ (forall o w p, os_bytes_ok o -> opened (keygen_process o w p) = opened w).
Proof. intros H. specialize (H short_os (mkProc 3 0) Picnic3_L1 short_os_ok). vm_compute in H. discriminate. Qed.
Print Assumptions C69_closes_refuted.

(** Therefore, once enough reads were cut short, key generation fails for good in this process, whatever the system delivers
    from then on. *)
Theorem C69_exhausts : forall E o o' w p P q pk0 sk0 k, env_bytes_ok E -> get_param_set p = Some P ->
  (forall Q, get_param_set q = Some Q -> constants_ok E Q) -> os_bytes_ok o -> os_bytes_ok o' -> os_limit o' = os_limit o ->
  starved o -> opened w <= os_limit o -> os_limit o <= k + opened w ->
  exists pk sk, picnic_keygen E (rng_of o' (keygens o w p k)) q pk0 sk0 = Ok (false, pk, sk).
Proof. exact keygen_exhausts. Qed.
Print Assumptions C69_exhausts.

Example C69_exhausts_example : env_bytes_ok toy_env /\ get_param_set Picnic_L1_FS <> None /\
  (forall Q, get_param_set Picnic3_L5 = Some Q -> constants_ok toy_env Q) /\ os_bytes_ok short_os /\ os_bytes_ok full_os /\
  os_limit full_os = os_limit short_os /\ starved short_os /\ opened (mkProc 3 0) <= os_limit short_os /\ os_limit short_os <= 1021 + opened (mkProc 3 0).
Proof.
  split; [exact toy_env_bytes|]. split; [discriminate|]. split; [exact (toy_constants_all Picnic3_L5)|]. split; [exact short_os_ok|]. split; [exact full_os_ok|].
  split; [reflexivity|]. split; [exact short_os_starved|]. cbn. lia.
Qed.
