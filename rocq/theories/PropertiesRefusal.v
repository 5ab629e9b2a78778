(** Property theorems: what signing and verification do when the allocator refuses a request. *)

From Coq Require Import List NArith Arith Bool.
From Verif Require Import Base Params Memory AllocApi MemSpec.
From Verif Require Import MemTop RefusalProofs.
Import ListNotations.

Local Open Scope nat_scope.

(** C72: that picnic_sign and picnic_verify report failure when memory runs out is false of the code.
    They test the signature object for NULL, but only after writing to it: when the first request is
    refused the run is undefined, for every parameter set. *)
Theorem C72_first_request_refuted : forall p P g des v m,
  get_param_set p = Some P -> refuses m (next m) = true ->
  picnic_sign_mem p g m = UB /\ picnic_verify_mem p des v m = UB.
Proof. exact first_refused_pf. Qed.
Print Assumptions C72_first_request_refuted.

(** For ZKB++ the same when the second request, the array of proofs, is refused; the signature printer,
    whose signature object is a local variable, behaves alike. *)
Theorem C72_second_request_refuted : forall p P g des v m,
  get_param_set p = Some P -> is_picnic3 p = false ->
  refuses m (next m) = false -> refuses m (S (next m)) = true ->
  picnic_sign_mem p g m = UB /\ picnic_verify_mem p des v m = UB /\ print_signature_mem p des v m = UB.
Proof. exact second_refused_pf. Qed.
Print Assumptions C72_second_request_refuted.

(** Whatever requests are refused, from whatever memory: a run that is defined returns what it returns
    when none is refused.  So no refusal is ever reported to the caller, and the test for NULL has no effect. *)
Theorem C72_sign_unreported : forall p P g m r m',
  get_param_set p = Some P -> picnic_sign_mem p g m = Ok (r, m') ->
  r = forallb (g_sim g) (seq 0 (numMPCRounds P)) && g_ser g.
Proof. exact sign_unreported_pf. Qed.
Print Assumptions C72_sign_unreported.

Theorem C72_verify_unreported : forall p P des v m r m',
  get_param_set p = Some P -> picnic_verify_mem p des v m = Ok (r, m') ->
  r = if is_picnic3 p
      then parses P v && (v_rs0 v && forallb (fun t => negb (v_open v t) || v_rs v t) (seq 0 (numMPCRounds P)) && accepts P v)
      else des && v_cmp v.
Proof. exact verify_unreported_pf. Qed.
Print Assumptions C72_verify_unreported.

(** Memories that refuse the first request and the second; runs of both functions that are defined. *)
Example C72_example : exists P v g m1 m2 m3 m4 m5,
  get_param_set Picnic_L1_FS = Some P /\ is_picnic3 Picnic_L1_FS = false /\
  refuses m1 (next m1) = true /\
  refuses m2 (next m2) = false /\ refuses m2 (S (next m2)) = true /\
  picnic_verify_mem Picnic_L1_FS true v m3 = Ok (true, m4) /\
  picnic_sign_mem Picnic_L1_FS g m3 = Ok (true, m5).
Proof.
  destruct (get_param_set Picnic_L1_FS) as [P|] eqn:HP; [|discriminate HP].
  set (v := mkVflow false true 0 0 0 (fun _ => false) (fun _ => false) true (fun _ => true) (fun _ => true) true true true).
  set (g := mkSflow (fun _ => true) (fun _ => false) 0 0 (fun _ => 0) true).
  destruct (verify1_mem_pf Picnic_L1_FS P true v _ HP eq_refl empty_wf) as (r & m4 & H4 & _ & _ & ->).
  assert (Hg : forallb (g_sim g) (seq 0 (numMPCRounds P)) = true) by (apply forallb_forall; reflexivity).
  destruct (sign_mem_pf Picnic_L1_FS P g _ HP empty_wf (or_intror Hg)) as (r & m5 & H5 & _ & _ & ->).
  rewrite Hg in H5.
  exists P, v, g, (mkMem [] 0 (fun _ => true)), (mkMem [] 0 (fun k => k =? 1)), (mkMem [] 0 (fun _ => false)), m4, m5.
  exact (conj eq_refl (conj eq_refl (conj eq_refl (conj eq_refl (conj eq_refl (conj H4 H5)))))).
Qed.
