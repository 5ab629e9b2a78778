(** Properties of signing and verification for all parameter sets: the ZKB++ and the Picnic3 parts together. *)

From Coq Require Import List NArith Arith Bool Lia.
From Verif Require Import Base Params Env Spec LowMC Picnic1 Tree Picnic3 Api ApiSpec SigSpec BaseFacts ParamFacts
  ApiFacts ApiProofs1 LowMCFacts LowMCInj ZkbApi ZkbProps P3Sign P3Api P3Uninit P3Props Witness ZkbWitness P3Witness.
Import ListNotations.

Local Ltac cases p HI := destruct (is_picnic3 p) eqn:Hp3; [specialize (HI eq_refl)|clear HI].

Section A.
Variable E : env.
Variable P : paramset.
Variable fuel : nat.
Hypothesis HE : env_bytes_ok E.
Hypothesis HC : constants_ok E P.

Section Sign.
Variable sk : privatekey.
Variables msg buf : bytes.
Variable len : nat.
Hypothesis HP : get_param_set (sk_params sk) = Some P.
Hypothesis HI : is_picnic3 (sk_params sk) = true -> inverses_ok E P.
Hypothesis Hw : sk_wf sk.
Hypothesis Hl : len <= length buf.

Lemma all_C03 :
  (~ lowmc_relation E P (sk_data sk) (pk_plaintext (sk_pk sk)) (pk_ciphertext (sk_pk sk)) ->
     picnic_sign E fuel sk msg buf len = Ok (false, buf, len)) /\
  (lowmc_relation E P (sk_data sk) (pk_plaintext (sk_pk sk)) (pk_ciphertext (sk_pk sk)) ->
     N.to_nat (picnic_signature_size (sk_params sk)) <= len ->
     picnic_sign E fuel sk msg buf len = NoFuel \/
     exists buf' l, picnic_sign E fuel sk msg buf len = Ok (true, buf', l)).
Proof.
  cases (sk_params sk) HI; [|apply C03_pf; auto].
  pose proof (sign3_safe E P _ HP Hp3 HE HC HI fuel sk msg buf len eq_refl Hw Hl) as Hs.
  pose proof (sign3_rel E P _ HP Hp3 sk Hw) as R. split.
  - intros Hn. rewrite (sign3_eq E P _ HP Hp3 HE HC HI fuel sk msg buf len eq_refl Hw Hl).
    destruct (eqb_bytes _ _); [|reflexivity]. exfalso. apply Hn, R. reflexivity.
  - intros Hr Hsz.
    destruct (picnic_sign E fuel sk msg buf len) as [[[b buf'] l]| | |] eqn:Es; cbn in Hs; try contradiction; auto.
    destruct (sign3_result E P _ HP Hp3 HE HC HI fuel sk msg buf len b buf' l eq_refl Hw Hl Es) as [Hb|Hb].
    + right. exists buf', l. destruct Hb as [-> _]. reflexivity.
    + destruct Hb as (_ & _ & _ & Hb). specialize (Hb Hr). lia.
Qed.

Lemma all_C35 : safe (picnic_sign E fuel sk msg buf len).
Proof.
  cases (sk_params sk) HI; [|apply (C35_pf E P); auto].
  exact (sign3_safe E P _ HP Hp3 HE HC HI fuel sk msg buf len eq_refl Hw Hl).
Qed.

Lemma all_C04 : N.to_nat (picnic_signature_size (sk_params sk)) <= len ->
  match picnic_sign E fuel sk msg buf len with
  | Ok (true, _, l) => l <= N.to_nat (picnic_signature_size (sk_params sk))
  | Ok (false, _, _) =>
      ~ lowmc_relation E P (sk_data sk) (pk_plaintext (sk_pk sk)) (pk_ciphertext (sk_pk sk))
  | NoFuel => True
  | _ => False
  end.
Proof.
  pose proof all_C35 as Hs. intros Hsz. cases (sk_params sk) HI; [|apply C04_pf; auto].
  destruct (picnic_sign E fuel sk msg buf len) as [[[b buf'] l]| | |] eqn:Es; cbn in Hs; try contradiction; auto.
  destruct (sign3_result E P _ HP Hp3 HE HC HI fuel sk msg buf len b buf' l eq_refl Hw Hl Es) as [Hb|Hb].
  - destruct Hb as (-> & _ & _ & H & _). exact H.
  - destruct Hb as (-> & _ & _ & Hb). intros Hr. specialize (Hb Hr). lia.
Qed.

Lemma all_C05 b buf' l : picnic_sign E fuel sk msg buf len = Ok (b, buf', l) ->
  (b = true -> l <= len /\ length buf' = length buf /\ skipn l buf' = skipn l buf) /\
  (b = false -> buf' = buf /\ l = len).
Proof.
  intros Hs. cases (sk_params sk) HI; [|eapply C05_pf; eauto].
  destruct (sign3_result E P _ HP Hp3 HE HC HI fuel sk msg buf len b buf' l eq_refl Hw Hl Hs) as [Hb|Hb].
  - destruct Hb as (-> & _ & B1 & _ & B2 & B3). split; [auto|discriminate].
  - destruct Hb as (-> & B1 & B2 & _). split; [discriminate|auto].
Qed.

Lemma all_sign_fuel fuel' r : fuel <= fuel' ->
  picnic_sign E fuel sk msg buf len = Ok r -> picnic_sign E fuel' sk msg buf len = Ok r.
Proof.
  intros Hf Hs. cases (sk_params sk) HI; [|eapply sign_fuel; eauto].
  exact (sign3_fuel E P _ HP Hp3 HE HC HI fuel fuel' sk msg buf len r eq_refl Hw Hl Hf Hs).
Qed.

Lemma all_sign_same sk' : sk_wf sk' -> sk_same P sk sk' ->
  picnic_sign E fuel sk msg buf len = picnic_sign E fuel sk' msg buf len.
Proof.
  intros Hw' Hs. cases (sk_params sk) HI; [|apply (sign_same E P); auto].
  exact (sign3_same E P _ HP Hp3 HE HC HI fuel sk sk' msg buf len eq_refl Hw Hw' Hs Hl).
Qed.

Lemma all_sign_uninit u : env_bytes_ok (with_uninit E u) ->
  picnic_sign (with_uninit E u) fuel sk msg buf len = picnic_sign E fuel sk msg buf len.
Proof.
  intros HE'. cases (sk_params sk) HI; [|apply (sign_uninit E u P); auto].
  exact (sign3_uninit E u P _ HP Hp3 HE HE' HC HI fuel sk msg buf len eq_refl Hw Hl).
Qed.
End Sign.

Section Verify.
Variable pk : publickey.
Variables msg sg : bytes.
Hypothesis HP : get_param_set (pk_params pk) = Some P.
Hypothesis HI : is_picnic3 (pk_params pk) = true -> inverses_ok E P.
Hypothesis Hw : pk_wf pk.
Hypothesis Hb : bytes_ok sg.

Lemma all_C15 : transf P <> TRANSFORM_UR \/ N.to_nat (picnic_signature_size (pk_params pk)) <= length sg ->
  safe (picnic_verify E fuel pk msg sg).
Proof.
  intros Ht. cases (pk_params pk) HI.
  - exact (verify3_safe E P _ HP Hp3 HE HC HI fuel pk msg sg eq_refl Hw Hb).
  - apply (C15_pf E P); auto. destruct Ht as [Ht|Ht]; [|auto].
    destruct (w1_tr P (get_param_set_wfP1 _ _ HP Hp3)); [auto|contradiction].
Qed.

Lemma all_verify_fuel fuel' r : fuel <= fuel' ->
  picnic_verify E fuel pk msg sg = Ok r -> picnic_verify E fuel' pk msg sg = Ok r.
Proof.
  intros Hf Hs. cases (pk_params pk) HI; [|eapply verify_fuel; eauto].
  exact (verify3_fuel E P _ HP Hp3 fuel fuel' pk msg sg r eq_refl Hf Hs).
Qed.

Lemma all_verify_same pk' : pk_wf pk' -> pk_same P pk pk' ->
  picnic_verify E fuel pk msg sg = picnic_verify E fuel pk' msg sg.
Proof.
  intros Hw' Hs. cases (pk_params pk) HI; [|apply (verify_same E P); auto].
  exact (verify3_same E P _ HP Hp3 HE HC HI fuel pk pk' msg sg eq_refl Hw Hw' Hs Hb).
Qed.

Lemma all_verify_uninit u : env_bytes_ok (with_uninit E u) ->
  picnic_verify (with_uninit E u) fuel pk msg sg = picnic_verify E fuel pk msg sg.
Proof.
  intros HE'. cases (pk_params pk) HI; [|apply (verify_uninit E P (pk_params pk)); auto].
  exact (verify3_uninit E u P _ HP Hp3 HE HE' HC HI fuel pk msg sg eq_refl Hw Hb).
Qed.
End Verify.
End A.

Lemma all_C23 p P fuel msg buf len : get_param_set p = Some P -> len <= length buf ->
  picnic_sign (const_env 255) fuel (toy_sk p) msg buf len = NoFuel.
Proof.
  intros HP Hl. destruct (is_picnic3 p) eqn:H3; [exact (C23_p3_pf p P fuel msg buf len HP H3 Hl)|].
  exact (C23_sign_pf p P fuel msg buf len HP H3 Hl).
Qed.

(** ** Keys *)
Section Keys.
Variable E : env.
Variable u : nat -> nat -> nat -> bytes.
Hypothesis HE : env_bytes_ok E.
Hypothesis HE' : env_bytes_ok (with_uninit E u).

Lemma enc_uninit P pt key : wfP P -> constants_ok E P -> block_wf pt -> block_wf key ->
  LowMCEnc (with_uninit E u) P pt zero_block key = LowMCEnc E P pt zero_block key.
Proof.
  intros HP HC Hp Hk.
  destruct (proj1 (ok_ex _ _) (LowMCEnc_api E HE P pt key HP HC Hp Hk)) as (o & -> & [Ol Ob] & Hb).
  destruct (proj1 (ok_ex _ _) (LowMCEnc_api (with_uninit E u) HE' P pt key HP HC Hp Hk)) as (o' & -> & [Ol' Ob'] & Hb').
  f_equal. apply bits_ext; auto; [congruence|]. intros i _. rewrite Hb, Hb'. reflexivity.
Qed.

Lemma validate_uninit sk pk : (forall P, get_param_set (pk_params pk) = Some P -> constants_ok E P) ->
  sk_wf sk -> pk_wf pk ->
  picnic_validate_keypair (with_uninit E u) (Some sk) (Some pk) = picnic_validate_keypair E (Some sk) (Some pk).
Proof.
  intros HC (Ws & _) (Wp & _). unfold picnic_validate_keypair.
  destruct (get_param_set (pk_params pk)) as [P|] eqn:HP; [|reflexivity].
  pose proof (get_param_set_wfP _ _ HP) as Hw. rewrite (enc_uninit P) by auto. reflexivity.
Qed.

Lemma keygen_uninit rng p pk0 sk0 : (forall P, get_param_set p = Some P -> constants_ok E P) -> rng_wf rng ->
  picnic_keygen (with_uninit E u) rng p pk0 sk0 = picnic_keygen E rng p pk0 sk0.
Proof.
  intros HC Hrng. unfold picnic_keygen. destruct (is_valid_params p) eqn:Hv; cbn [negb]; [|reflexivity].
  destruct (get_param_set_valid p Hv) as [P HP]. rewrite HP. specialize (HC P HP).
  pose proof (get_param_set_wfP _ _ HP) as Hw. destruct (wfP_block P Hw) as [_ Hn].
  destruct (Hrng 0 (stateSizeBytes P)) as [H1l H1b]. destruct (Hrng 1 (stateSizeBytes P)) as [H2l H2b].
  destruct (rng 0 (stateSizeBytes P)) as [ok1 r1]. destruct (rng 1 (stateSizeBytes P)) as [ok2 r2]. cbn [fst snd] in *.
  pose proof (random_block P r1 Hw H1l H1b) as HR1. pose proof (random_block P r2 Hw H2l H2b) as HR2.
  rewrite (blit_zero_block r1 _ H1l Hn) in *. cbn [bind] in *. destruct ok1; cbn [negb]; [|reflexivity].
  destruct (proj1 (ok_ex _ _) HR1) as (d & -> & Hdw & _). cbn [bind].
  rewrite (blit_zero_block r2 _ H2l Hn) in *. cbn [bind] in *. destruct ok2; cbn [negb]; [|reflexivity].
  destruct (proj1 (ok_ex _ _) HR2) as (pt & -> & Hptw & _). cbn [bind].
  rewrite (enc_uninit P) by auto. reflexivity.
Qed.
End Keys.

(** Equal blocks have equal bits. *)
Lemma block_bits P a b i : wfP P -> block_wf a -> block_wf b -> block P a = block P b -> i < 8 * stateSizeBytes P ->
  bit a i = bit b i.
Proof.
  intros HP Wa Wb H. apply (eqb_block P a b HP Wa Wb). apply eqb_bytes_eq. exact H.
Qed.

Lemma validate_same E sk sk' pk pk' P : env_bytes_ok E -> get_param_set (pk_params pk) = Some P -> constants_ok E P ->
  sk_wf sk -> sk_wf sk' -> pk_wf pk -> pk_wf pk' ->
  sk_params sk = sk_params sk' -> block P (sk_data sk) = block P (sk_data sk') -> pk_same P pk pk' ->
  picnic_validate_keypair E (Some sk) (Some pk) = picnic_validate_keypair E (Some sk') (Some pk').
Proof.
  intros HE HP HC Ws Ws' Wp Wp' Hsp Hsd (Hpp & Hpt & Hct).
  pose proof (get_param_set_wfP _ _ HP) as Hw. destruct (wfP_block P Hw) as [_ Hn].
  assert (HP' : get_param_set (pk_params pk') = Some P) by congruence.
  destruct (C10_pf E sk pk P HE HP HC Ws Wp) as (v & -> & Hv).
  destruct (C10_pf E sk' pk' P HE HP' HC Ws' Wp') as (v' & -> & Hv').
  f_equal. apply eq_true_iff_eq. rewrite Hv, Hv', <- Hsp, <- Hpp. apply and_iff_compat_l.
  assert (Hnb : stateSizeBits P <= 8 * stateSizeBytes P) by (rewrite (wf_sB P Hw); apply numBytes_spec).
  assert (Hext : forall i, i < stateSizeBits P ->
    lowmc_enc (lowmc_of E P) (bit (sk_data sk)) (bit (pk_plaintext pk)) i =
    lowmc_enc (lowmc_of E P) (bit (sk_data sk')) (bit (pk_plaintext pk')) i).
  { apply (lowmc_enc_ext (lowmc_of E P)).
    - exact (wf_m P Hw).
    - intros i Hi. apply (block_bits P); auto; [apply Ws|apply Ws'|]. cbn in Hi. lia.
    - intros i Hi. apply (block_bits P); auto; [apply Wp|apply Wp'|]. cbn in Hi. lia. }
  unfold lowmc_relation, padding_zero. split; intros [R1 R2]; split; intros i Hi.
  - rewrite <- (block_bits P (pk_ciphertext pk) (pk_ciphertext pk') i Hw (proj2 Wp) (proj2 Wp') Hct) by lia. rewrite R1 by auto. apply Hext. auto.
  - rewrite <- (block_bits P (pk_ciphertext pk) (pk_ciphertext pk') i Hw (proj2 Wp) (proj2 Wp') Hct) by lia. apply R2. auto.
  - rewrite (block_bits P (pk_ciphertext pk) (pk_ciphertext pk') i Hw (proj2 Wp) (proj2 Wp') Hct) by lia. rewrite R1 by auto. symmetry. apply Hext. auto.
  - rewrite (block_bits P (pk_ciphertext pk) (pk_ciphertext pk') i Hw (proj2 Wp) (proj2 Wp') Hct) by lia. apply R2. auto.
Qed.
