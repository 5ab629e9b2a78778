(** Property theorem: rewinding a ZKB++ signer. *)

From Coq Require Import List NArith Arith Bool.
From Verif Require Import Base Params Env Spec LowMC Api ApiSpec SigSpec ZkbppSpec SoundSpec ForkSpec.
From Verif Require Import BaseFacts ParamFacts ZkbppProofs ZkbFork ForkWitness Witness ZkbWitness.
Import ListNotations.

(** C53: let the hash function answer differently, in three runs, on one and the same challenge string
    [X], and let verification accept a signature with that string in each run.  If repetition [t] is
    challenged with 0, 1 and 2, then the key shares of the three challenged parties add up to a private
    key of the public key, or two of the openings are different strings with the same commitment. *)
Theorem C53_rewinding_gives_key : forall E P p sp fuel pk msg sg h X t,
  get_param_set p = Some P -> is_picnic3 p = false -> table2 p = Some sp -> env_bytes_ok E -> constants_ok E P ->
  pk_params pk = p -> pk_wf pk -> padding_zero P (pk_ciphertext pk) ->
  let Ec c := reprogram E (1%N :: X) (h c) in
  (forall c, c < 3 -> env_bytes_ok (Ec c)) -> (forall c, c < 3 -> bytes_ok (sg c)) ->
  (forall c, c < 3 -> picnic_verify (Ec c) fuel pk msg (sg c) = Ok true) ->
  (forall c, c < 3 -> zkb_string (Ec c) P sp (pk_ciphertext pk) (pk_plaintext pk) msg (sg c) = X) ->
  t < sp_T sp -> (forall c, c < 3 -> encoded_trit (sg c) t = c) ->
  exists z, (forall c, c < 3 -> zkbpp_parse sp (sg c) = Some (z c)) /\
  ((exists j, j < 3 /\ let i := (j + 2) mod 3 in
      (let str := opened_string E sp (spec_lowmc E P sp) (block P (pk_plaintext pk)) in
       collide E P HASH_PREFIX_0 (str (z j) t 0) (str (z i) t 1) \/
       collide E P HASH_PREFIX_4 (opened_seed (z j) t 0) (opened_seed (z i) t 1))) \/
   (forall key, (forall i, i < stateSizeBits P -> bit key i = shares_sum E sp z t i) ->
    lowmc_relation E P key (pk_plaintext pk) (pk_ciphertext pk))).
Proof. exact C53_pf. Qed.
Print Assumptions C53_rewinding_gives_key.

(** Three accepted signatures with one challenge string and all three challenges of repetition 0. *)
Example C53_example : exists P sp sg h X,
  let E := const_env 85 in let p := Picnic_L1_FS in
  let pk := mkPk p (pk_plaintext (sk_pk (toy_sk p))) (pk_ciphertext (sk_pk (toy_sk p))) in
  let Ec c := reprogram E (1%N :: X) (h c) in
  get_param_set p = Some P /\ is_picnic3 p = false /\ table2 p = Some sp /\ env_bytes_ok E /\ constants_ok E P /\
  pk_params pk = p /\ pk_wf pk /\ padding_zero P (pk_ciphertext pk) /\
  (forall c, c < 3 -> env_bytes_ok (Ec c)) /\ (forall c, c < 3 -> bytes_ok (sg c)) /\
  (forall c, c < 3 -> picnic_verify (Ec c) 8 pk [9%N] (sg c) = Ok true) /\
  (forall c, c < 3 -> zkb_string (Ec c) P sp (pk_ciphertext pk) (pk_plaintext pk) [9%N] (sg c) = X) /\
  0 < sp_T sp /\ (forall c, c < 3 -> encoded_trit (sg c) 0 = c).
Proof.
  destruct (get_param_set Picnic_L1_FS) as [P|] eqn:HP; [|discriminate HP].
  destruct (table2_conforms _ P HP) as (sp & Ht & _).
  destruct (rewind_case _ P sp [9%N] HP eq_refl Ht) as (sg & h & X & W).
  exists P, sp, sg, h, X. cbv zeta.
  exact (conj HP (conj eq_refl (conj Ht W))).
Qed.
