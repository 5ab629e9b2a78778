(** Property theorems: print_signature. *)

From Coq Require Import List NArith Arith Bool.
From Verif Require Import Base Params Env Spec Picnic1 Picnic3 Api ApiSpec ZkbppSpec Print PrintSpec Memory AllocApi MemSpec.
From Verif Require Import PrintProofs MemTop Witness ZkbWitness P3Witness ZkbApi ZkbBind ZkbProps.
Import ListNotations.

(** C49: for a ZKB++ signature that parses, print_signature prints the challenge, the salt and, for every
    round, the fields of the parsed signature; the printed bytes, in order, are the signature bytes. *)
Theorem C49_print_zkb : forall E p P fuel sg s,
  get_param_set p = Some P -> is_picnic3 p = false -> env_bytes_ok E -> bytes_ok sg ->
  deserializeSignature E P sg = Ok (Some s) ->
  exists ls, print_signature E fuel sg p = Ok ls /\ lines_of P s (encoded_trit sg) ls /\
    exists rest, sg = shown ls ++ rest.
Proof. exact print_zkb_pf. Qed.
Print Assumptions C49_print_zkb.

(** When the bytes do not parse it prints that they do not. *)
Theorem C49_print_unparsed : forall E fuel p P sg,
  get_param_set p = Some P ->
  (if is_picnic3 p then deserializeSignature2 E P fuel sg = Ok None else deserializeSignature E P sg = Ok None) ->
  print_signature E fuel sg p = Ok [InvalidSignature].
Proof. exact print_unparsed. Qed.
Print Assumptions C49_print_unparsed.

(** False of the code for Picnic3: for every signature that picnic_verify accepts, print_signature reads
    beyond the end of the messages of the first opened round. *)
Theorem C49_print_picnic3_refuted : forall E fuel p P pk msg sg,
  get_param_set p = Some P -> is_picnic3 p = true -> env_bytes_ok E -> pk_params pk = p -> bytes_ok sg ->
  picnic_verify E fuel pk msg sg = Ok true -> print_signature E fuel sg p = UB.
Proof. exact accepted_print_ub. Qed.
Print Assumptions C49_print_picnic3_refuted.

(** The hypotheses hold together, for both families. *)
Example C49_example : exists P sg s ls P3 sg3,
  get_param_set Picnic_L1_FS = Some P /\ env_bytes_ok (const_env 85) /\ bytes_ok sg /\
  deserializeSignature (const_env 85) P sg = Ok (Some s) /\ deserializeSignature (const_env 85) P [] = Ok None /\
  print_signature (const_env 85) 8 sg Picnic_L1_FS = Ok ls /\
  get_param_set Picnic3_L1 = Some P3 /\ bytes_ok sg3 /\
  picnic_verify count_env 30 (toy_pk Picnic3_L1) [1%N; 2%N] sg3 = Ok true.
Proof.
  destruct (get_param_set Picnic_L1_FS) as [P|] eqn:HP; [|discriminate HP].
  destruct (zkb_setup 85 _ P eq_refl HP) as (H1 & H2 & H3 & H4 & H5 & H6 & H7 & H8 & H9 & H10 & H11).
  destruct (const_signs 85 _ P [9%N] (or_intror eq_refl) HP eq_refl) as (buf' & l & Hs).
  assert (Hb : bytes_ok (firstn l buf')).
  { refine (zkb_sign_bytes _ _ P 8 _ [9%N] _ _ buf' l HP H5 eq_refl H1 H3 H4 H8 H10 _ Hs). rewrite H11. exact (le_n _). }
  assert (Hv : picnic_verify (const_env 85) 8 (toy_pk Picnic_L1_FS) [9%N] (firstn l buf') = Ok true).
  { refine (C01_pf (const_env 85) (uninit (const_env 85)) P 8 8 (toy_sk Picnic_L1_FS) (toy_pk Picnic_L1_FS) [9%N]
      (zeros (sig_size Picnic_L1_FS)) (sig_size Picnic_L1_FS) buf' l _ _ H1 H1 H3 H4 H8 H6 H9 _ (le_n _) Hs).
    + rewrite H5. exact HP.
    + rewrite H5. reflexivity.
    + rewrite H11. exact (le_n _). }
  destruct (accepted_prints _ 8 8 _ P _ _ _ HP eq_refl H1 H7 Hb Hv) as (s & ls & Hd & Hp & _).
  destruct (get_param_set Picnic3_L1) as [P3|] eqn:HP3; [|discriminate HP3].
  destruct (count_accepts _ P3 [1%N; 2%N] HP3 eq_refl ltac:(discriminate) eq_refl) as (sg & Hb3 & Hv3).
  assert (Hn : deserializeSignature (const_env 85) P [] = Ok None).
  { injection HP as <-. reflexivity. }
  exists P, (firstn l buf'), s, ls, P3, sg.
  exact (conj eq_refl (conj H1 (conj Hb (conj Hd (conj Hn (conj Hp (conj eq_refl (conj Hb3 Hv3)))))))).
Qed.

(** C50: print_signature releases all it allocates when it prints a signature. *)
Theorem C50_print_releases : forall p P des v m,
  get_param_set p = Some P -> mem_wf m -> (if is_picnic3 p then parses P v else des) = true ->
  leaves_no_block (print_signature_mem p des v) m (fun r => r = true).
Proof. exact print_mem_pf. Qed.
Print Assumptions C50_print_releases.

(** False of the code when the signature does not parse: the block of the proofs, among others, stays allocated. *)
Theorem C50_failure_releases_refuted : forall p P des v m,
  get_param_set p = Some P -> mem_wf m -> (if is_picnic3 p then parses P v else des) = false ->
  leaves_block (numMPCRounds P * 48) (print_signature_mem p des v) m (fun r => r = false).
Proof. exact print_leak_pf. Qed.
Print Assumptions C50_failure_releases_refuted.

Example C50_example : exists P3 v w,
  get_param_set Picnic3_L1 = Some P3 /\ mem_wf (mkMem [] 0 (fun _ => false)) /\ parses P3 v = true /\ v_open v 3 = true /\
  parses P3 w = false /\ v_len w = true /\ v_open w 3 = true.
Proof.
  eexists.
  exists (mkVflow false true 16 32 64 (fun t => t <? 36) (fun _ => false) true (fun _ => true) (fun _ => true) true true true).
  exists (mkVflow false true 16 32 64 (fun t => t <? 36) (fun t => t =? 7) true (fun _ => true) (fun _ => true) true true true).
  split; [reflexivity|]. split; [exact empty_wf|]. repeat split; reflexivity.
Qed.
