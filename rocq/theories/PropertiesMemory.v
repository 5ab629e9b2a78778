(** Property theorems: what signing and verification do with memory. *)

From Coq Require Import List NArith Arith Bool.
From Verif Require Import Base Params Env Spec Api Memory AllocApi MemSpec.
From Verif Require Import MemTop P3Witness ApiSpec Witness.
Import ListNotations.

(** C47: picnic_verify releases all it allocates, on every path, and makes no invalid release.  For
    ZKB++ the path depends on whether the signature parses ([des]) and whether the challenges agree. *)
Theorem C47_verify_releases_zkb : forall p P des v m,
  get_param_set p = Some P -> is_picnic3 p = false -> mem_wf m ->
  leaves_no_block (picnic_verify_mem p des v) m (fun r => r = des && v_cmp v).
Proof. exact verify1_mem_pf. Qed.
Print Assumptions C47_verify_releases_zkb.

(** For Picnic3 the path depends on the signature bytes. *)
Theorem C47_verify_releases_picnic3 : forall E p P fuel sg v m,
  get_param_set p = Some P -> is_picnic3 p = true -> env_bytes_ok E -> bytes_ok sg ->
  follows E P fuel sg v -> mem_wf m ->
  leaves_no_block (picnic_verify_mem p true v) m (fun r => r = parses P v && accepts P v).
Proof. exact verify3_mem_pf. Qed.
Print Assumptions C47_verify_releases_picnic3.

(** The code of verify_picnic3 does not have this property by itself: it relies on the reconstruction
    of the initial seeds succeeding.  If it failed, the error path would release pointers in the array
    of tapes that were never set. *)
Theorem C47_failed_reconstruction_refuted : forall p P v m,
  get_param_set p = Some P -> is_picnic3 p = true -> v_rs0 v = false -> mem_wf m ->
  verify_picnic3_mem P v m = UB.
Proof. exact verify3_ub_pf. Qed.
Print Assumptions C47_failed_reconstruction_refuted.

Example C47_example : exists P sg v,
  get_param_set Picnic3_L1 = Some P /\ bytes_ok sg /\
  picnic_verify count_env 30 (toy_pk Picnic3_L1) [1%N; 2%N] sg = Ok true /\
  follows count_env P 30 sg v /\ parses P v = true /\ mem_wf (mkMem [] 0 (fun _ => false)) /\
  mem_wf (mkMem [Tok 3 9 true; Cel 3 0 (Ptr (Loc 3 0))] 4 (fun _ => false)).
Proof.
  destruct (get_param_set Picnic3_L1) as [P|] eqn:HP; [|discriminate HP].
  destruct (count_accepts _ P [1%N; 2%N] HP eq_refl ltac:(discriminate) eq_refl) as (sg & Hb & Hv).
  destruct (p3_setup _ P HP) as (_ & _ & _ & _ & _ & _ & _ & H8 & _).
  destruct (accepted_follows _ P _ _ _ _ sg HP eq_refl H8 Hv) as (v & Hf & Hp). exists P, sg, v.
  refine (conj eq_refl (conj Hb (conj Hv (conj Hf (conj Hp (conj empty_wf _)))))). split; [|intros k; reflexivity]. split.
  - repeat constructor; cbn; intuition congruence.
  - cbn. intuition (subst; cbn; auto with arith).
  - cbn. intros b o c [H|[H|[]]]; [discriminate H|]. injection H as <- <- <-. exists 9, true, 0. auto.
Qed.

(** C48: picnic_sign releases all it allocates, for Picnic3 on every path, for ZKB++ when the
    simulation of every round gives the public key, as it does for consistent keys. *)
Theorem C48_sign_releases : forall p P g m,
  get_param_set p = Some P -> mem_wf m ->
  is_picnic3 p = true \/ forallb (g_sim g) (seq 0 (numMPCRounds P)) = true ->
  leaves_no_block (picnic_sign_mem p g) m (fun r => r = forallb (g_sim g) (seq 0 (numMPCRounds P)) && g_ser g).
Proof. exact sign_mem_pf. Qed.
Print Assumptions C48_sign_releases.

(** For ZKB++ and an inconsistent key signing fails and leaves, among others, the block with the seeds
    of all rounds and the salt allocated. *)
Theorem C48_zkb_failure_releases_refuted : forall p P g m,
  get_param_set p = Some P -> mem_wf m ->
  is_picnic3 p = false -> forallb (g_sim g) (seq 0 (numMPCRounds P)) = false ->
  leaves_block (numMPCRounds P * numMPCParties P * seedSizeBytes P + saltSizeBytes P)
    (picnic_sign_mem p g) m (fun r => r = false).
Proof. exact sign_leak_pf. Qed.
Print Assumptions C48_zkb_failure_releases_refuted.

(** Both cases occur. *)
Example C48_example : exists P, get_param_set Picnic_L1_FS = Some P /\ mem_wf (mkMem [] 0 (fun _ => false)) /\
  forallb (g_sim (mkSflow (fun _ => true) (fun _ => false) 0 0 (fun _ => 0) true)) (seq 0 (numMPCRounds P)) = true /\
  forallb (g_sim (mkSflow (fun t => negb (t =? 5)) (fun _ => false) 0 0 (fun _ => 0) true)) (seq 0 (numMPCRounds P)) = false.
Proof. eexists. split; [reflexivity|]. split; [exact empty_wf|]. split; reflexivity. Qed.
