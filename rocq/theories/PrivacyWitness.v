(** Concrete cases for the privacy properties. *)

From Coq Require Import List NArith Arith Bool Lia ZifyBool ZifyNat ZifyN.
From Verif Require Import Base Params Env Spec LowMC Picnic3 Api ApiSpec P3Spec BaseFacts ParamFacts ApiFacts
  Witness P3Witness P3Props ZkbChal.
Import ListNotations.

(** Two keys of the same public key, for the toy constants. *)
Local Opaque pack.
Definition twin_a : bytes := [0;0;0;32]%N ++ zeros 28.
Definition twin_b : bytes := [0;0;0;160]%N ++ zeros 28.
Definition twin_ct : bytes := [208;0;0;96]%N ++ zeros 28.

Definition twin_checkP (P : paramset) : bool :=
  match LowMCEnc count_env P zero_block zero_block twin_a, LowMCEnc count_env P zero_block zero_block twin_b with
  | Ok a, Ok b => eqb_bytes a twin_ct && eqb_bytes b twin_ct
  | _, _ => false
  end.
Definition on_L1 (f : paramset -> bool) : bool :=
  match get_param_set Picnic3_L1 with Some P => f P | None => false end.
Lemma twin_check_true : on_L1 twin_checkP = true.
Proof. vm_compute. reflexivity. Qed.
Lemma on_L1_use f P : get_param_set Picnic3_L1 = Some P -> on_L1 f = true -> f P = true.
Proof. unfold on_L1. intros ->. auto. Qed.

Lemma zero_is_block : block_wf zero_block.
Proof. split; [reflexivity|apply bytes_ok_zeros]. Qed.

Lemma small_block l : length l = 4 -> forallb (fun x => (x <? 256)%N) l = true -> block_wf (l ++ zeros 28).
Proof.
  intros Hl Hb. split; [rewrite app_length, Hl; reflexivity|].
  apply Forall_app. split; [|apply bytes_ok_zeros]. apply Forall_forall. intros x Hx.
  rewrite forallb_forall in Hb. apply N.ltb_lt, Hb. auto.
Qed.

Lemma rel_of_bits E P key pt ct :
  (forall i, bit ct i = if i <? stateSizeBits P then lowmc_enc (lowmc_of E P) (bit key) (bit pt) i else false) ->
  lowmc_relation E P key pt ct.
Proof.
  intros H. split; intros i Hi; rewrite H.
  - replace (i <? stateSizeBits P) with true by lia. reflexivity.
  - replace (i <? stateSizeBits P) with false by lia. reflexivity.
Qed.

Lemma twin_of P : get_param_set Picnic3_L1 = Some P -> forall a b ct : bytes, block_wf a -> block_wf b ->
  match LowMCEnc count_env P zero_block zero_block a, LowMCEnc count_env P zero_block zero_block b with
  | Ok x, Ok y => eqb_bytes x ct && eqb_bytes y ct
  | _, _ => false
  end = true ->
  lowmc_relation count_env P a zero_block ct /\ lowmc_relation count_env P b zero_block ct.
Proof.
  intros HP a b ct Ba Bb Hc.
  pose proof (LowMCEnc_api count_env count_env_bytes P zero_block a (get_param_set_wfP _ _ HP)
                (count_constants _ P HP) zero_is_block Ba) as Ha.
  pose proof (LowMCEnc_api count_env count_env_bytes P zero_block b (get_param_set_wfP _ _ HP)
                (count_constants _ P HP) zero_is_block Bb) as Hb.
  destruct (LowMCEnc count_env P zero_block zero_block a) as [oa| | |]; try contradiction.
  destruct (LowMCEnc count_env P zero_block zero_block b) as [ob| | |]; try contradiction.
  apply andb_true_iff in Hc. rewrite !eqb_bytes_eq in Hc. destruct Hc as [-> ->].
  cbn [ok] in Ha, Hb. destruct Ha as [_ Ha]. destruct Hb as [_ Hb].
  split; apply rel_of_bits; [exact Ha|exact Hb].
Qed.

Lemma wf_a : block_wf twin_a. Proof. apply small_block; reflexivity. Qed.
Lemma wf_b : block_wf twin_b. Proof. apply small_block; reflexivity. Qed.
Lemma wf_ct : block_wf twin_ct. Proof. apply small_block; reflexivity. Qed.
Lemma twin_differ : bit twin_a 24 <> bit twin_b 24. Proof. vm_compute. discriminate. Qed.

Lemma twins P : get_param_set Picnic3_L1 = Some P ->
  block_wf twin_a /\ block_wf twin_b /\ block_wf twin_ct /\ block_wf zero_block /\ bit twin_a 24 <> bit twin_b 24 /\
  lowmc_relation count_env P twin_a zero_block twin_ct /\ lowmc_relation count_env P twin_b zero_block twin_ct.
Proof.
  intros HP.
  pose proof (twin_of P HP twin_a twin_b twin_ct wf_a wf_b (on_L1_use _ P HP twin_check_true)) as [Ha Hb].
  exact (conj wf_a (conj wf_b (conj wf_ct (conj zero_is_block (conj twin_differ (conj Ha Hb)))))).
Qed.

(** A masked key for any key and mask. *)
Lemma masked (key mask : bytes) : exists mk, block_wf mk /\
  forall i, i < 256 -> bit mk i = xorb (bit key i) (bit mask i).
Proof.
  destruct (pack_spec 32 (fun i => xorb (bit key i) (bit mask i))) as (K1 & K2 & K3).
  eexists. split; [exact (conj K1 K2)|]. intros i Hi. rewrite K3. replace (i <? 8 * 32) with true by lia. reflexivity.
Qed.

Lemma twin_setup P : get_param_set Picnic3_L1 = Some P ->
  exists tp mask mk, computeAuxTape count_env P (mkTapes (toy_tapes P) 0) = Ok (tp, mask) /\ block_wf mk /\
    forall i, i < stateSizeBits P -> bit mk i = xorb (bit twin_a i) (bit mask i).
Proof.
  intros HP. destruct (p3_setup _ P HP) as (H1 & H2 & H3 & H4 & _).
  destruct (C28_pf _ P _ (toy_tapes P) HP eq_refl H1 H3 H4 (toy_tapes_wf P)) as (tp & mask & Hc & _).
  destruct (masked twin_a mask) as (mk & W & B). exists tp, mask, mk. split; [exact Hc|]. split; [exact W|].
  intros i Hi. apply B. destruct (get_param_set_wfP _ _ HP). lia.
Qed.
