(** Property theorem: what a Picnic3 signature tells about the private key. *)

From Coq Require Import List NArith Arith.
From Verif Require Import Base Params Env Spec LowMC Api ApiSpec SigSpec LowMCInj ZkbppSpec ZkbppProofs KkwSpec KkwSign KkwVerify HashSpec.
From Verif Require Import ZkbApi ZkbProps Witness ZkbWitness P3Witness LeakSpec Leak LeakProofs.
Import ListNotations.

(** C52, refuted: a Picnic3 signature does not hide the private key.  [key_from_signature] computes
    the key from the bytes of the signature and the public constants, unless the challenge names the
    last party in every opened repetition. *)
Theorem C52_signature_hides_key_refuted : forall E p P sp fuel sk msg buf len buf' l,
  get_param_set p = Some P -> sk_params sk = p -> is_picnic3 p = true -> table2 p = Some sp ->
  env_bytes_ok E -> constants_ok E P -> inverses_ok E P -> xof_stream E ->
  sk_wf sk -> padding_zero P (sk_data sk) -> len <= length buf ->
  picnic_sign E fuel sk msg buf len = Ok (true, buf', l) ->
  key_from_signature E sp (spec_K0inv E P) fuel (firstn l buf') = Some (block P (sk_data sk)) \/
  exists LC LP, challenge E sp fuel (firstn (digestSizeBytes P) buf') = Some (LC, LP) /\
                forall t, In t LC -> unopened LC LP t = sp_N sp - 1.
Proof. exact C52_pf. Qed.
Print Assumptions C52_signature_hides_key_refuted.

Example C52_example : exists P sp buf' l,
  let E := count_env in let p := Picnic3_L5 in
  get_param_set p = Some P /\ sk_params (toy_sk p) = p /\ table2 p = Some sp /\
  env_bytes_ok E /\ constants_ok E P /\ inverses_ok E P /\ xof_stream E /\
  sk_wf (toy_sk p) /\ padding_zero P (sk_data (toy_sk p)) /\
  picnic_sign E 30 (toy_sk p) [5%N; 2%N] (zeros (sig_size p)) (sig_size p) = Ok (true, buf', l) /\
  key_from_signature E sp (spec_K0inv E P) 30 (firstn l buf') = Some (block P (sk_data (toy_sk p))).
Proof.
  destruct (get_param_set Picnic3_L5) as [P|] eqn:HP; [|discriminate HP].
  destruct (p3_setup _ P HP) as (A1 & _ & A3 & A4 & A5 & A6 & _).
  destruct (toy_sk_facts _ P HP) as (_ & _ & Hz & _).
  destruct (table2_conforms _ P HP) as (sp & Ht & _).
  destruct (count_leaks _ P sp [5%N; 2%N] HP eq_refl Ht) as (buf' & l & Hs); [discriminate|reflexivity|].
  exists P, sp, buf', l. cbv zeta.
  exact (conj HP (conj A6 (conj Ht (conj A1 (conj A3 (conj A4 (conj count_stream (conj A5 (conj Hz Hs))))))))).
Qed.

(** SHAKE has the property of the hash function used above: a shorter output is the start of a
    longer one. *)
Theorem C52_shake_streams : forall E, xof_stream (with_shake E).
Proof. exact shake_stream. Qed.
Print Assumptions C52_shake_streams.

Example C52_shake_example :
  xof (with_shake count_env) false [1%N; 2%N] 4 = firstn 4 (xof (with_shake count_env) false [1%N; 2%N] 40).
Proof. apply (shake_stream count_env false [1%N; 2%N] 4 40). apply (Nat.leb_le 4 40). reflexivity. Qed.
