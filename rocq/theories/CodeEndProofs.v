(** picnic_sign and picnic_verify on memory against the specification document, and one after the other. *)

From Coq Require Import List NArith Arith Bool Lia.
From Verif Require Import Base Params Env Spec LowMC Picnic1 MiniC CodeLowMC CodeSpec HashSpec CodeZkbSpec SigSpec CodeSerialize CodeSerializeSpec CodeDeserialize CodeDeserializeSpec Api ApiSpec ZkbppSpec.
From Verif Require Import BaseFacts ParamFacts CodeRules CodeSerializeProofs CodeReceiveProofs ZkbppProofs ZkbppProofs3 ZkbppProofs4 ZkbProps AllProps.
From Verif Require HashProofs.
Import ListNotations.

Theorem sign_code_is U E P sp st q qb buf len k msg fuel :
  locals_ok U -> get_param_set (sk_params k) = Some P -> is_picnic3 (sk_params k) = false -> table2 (sk_params k) = Some sp ->
  env_bytes_ok E -> constants_ok E P -> sk_wf k -> padding_zero P (sk_data k) ->
  lowmc_relation E P (sk_data k) (pk_plaintext (sk_pk k)) (pk_ciphertext (sk_pk k)) ->
  api_call P E st q qb buf len k msg ->
  exists st' t, run U (c_picnic_sign P (length msg) fuel) st = Some (st', t) /\
    match zkbpp_sign (with_shake E) sp (spec_lowmc E P sp) (block P (sk_data k)) (block P (pk_ciphertext (sk_pk k))) (block P (pk_plaintext (sk_pk k))) msg fuel with
    | None => iv st' 2 = 1 /\ iv st' 3 = 0
    | Some sg => if len <? zkbpp_max_size sp then iv st' 5 = 0 /\ holds st' qb buf
                 else iv st' 5 = 1 /\ iv st' 10 = length sg /\ holds st' qb (sg ++ skipn (length sg) buf)
    end.
Proof.
  intros HU HP Hp Ht HE HC HW Hz HR HA. assert (HE' : env_bytes_ok (with_shake E)) by (apply HashProofs.shake_env; exact HE).
  destruct (picnic_sign_code U E P st q qb buf len k msg fuel HU HP Hp HE HC HW HA) as (st' & t & R & _ & _ & M). exists st', t. split; [exact R|].
  rewrite (picnic_sign_is (with_shake E) (sk_params k) P sp fuel k msg buf len HP eq_refl Hp Ht HE' HC HW Hz HR (proj2 (ap_room _ _ _ _ _ _ _ _ _ HA))) in M.
  change (spec_lowmc (with_shake E) P sp) with (spec_lowmc E P sp) in M.
  destruct (zkbpp_sign _ _ _ _ _ _ _ _) as [sg|]; [|exact M]. destruct (len <? zkbpp_max_size sp); [|exact M]. destruct M as (A & _ & B). auto.
Qed.

Theorem verify_code_is U E P sp st q g ps sg pk msg fuel :
  locals_ok U -> get_param_set (pk_params pk) = Some P -> is_picnic3 (pk_params pk) = false -> pk_params pk <> Picnic_L1_full -> table2 (pk_params pk) = Some sp ->
  env_bytes_ok E -> constants_ok E P -> pk_wf pk -> padding_zero P (pk_ciphertext pk) ->
  received_call P E st q g ps sg (pk_ciphertext pk) (firstn (4 * stateSizeWords P) (pk_plaintext pk)) msg ->
  (exists st' t, run U (c_picnic_verify P (length msg) fuel) st = Some (st', t) /\
    match zkbpp_verify (with_shake E) sp (spec_lowmc E P sp) fuel (block P (pk_ciphertext pk)) (block P (pk_plaintext pk)) msg sg with
    | None => iv st' 5 = 1 /\ iv st' 2 = 0
    | Some b => iv st' 6 = (if b then 1 else 0)
    end)
  \/ (sp_UR sp = true /\ zkbpp_parse sp sg = None /\ (length (mm st (fst ps)) = snd ps + length sg -> run U (c_picnic_verify P (length msg) fuel) st = None)).
Proof.
  intros HU HP Hp Hf Ht HE HC HW Hz HR. assert (HE' : env_bytes_ok (with_shake E)) by (apply HashProofs.shake_env; exact HE).
  pose proof (picnic_verify_code U E P st q g ps sg pk msg fuel HU HP Hp Hf HE HC HW HR) as M.
  destruct (picnic_verify_is (with_shake E) (pk_params pk) P sp fuel pk msg sg HP eq_refl Hp Ht HE' HC HW Hz (proj1 (proj2 (proj2 (rc_sig _ _ _ _ _ _ _ _ _ _ HR))))) as [X|(X & Y & Z)]; rewrite X in M.
  - left. change (spec_lowmc (with_shake E) P sp) with (spec_lowmc E P sp) in M. destruct (zkbpp_verify _ _ _ _ _ _ _ _) as [b|]; destruct M as (st' & t & R & _ & _ & M); exists st', t; split; auto.
  - right. split; [exact Y|]. split; [exact Z|]. apply M.
Qed.

Theorem sign_then_verify_code U E P st q qb buf len k msg fuel :
  locals_ok U -> get_param_set (sk_params k) = Some P -> is_picnic3 (sk_params k) = false -> sk_params k <> Picnic_L1_full ->
  env_bytes_ok E -> constants_ok E P -> sk_wf k -> padding_zero P (sk_data k) ->
  lowmc_relation E P (sk_data k) (pk_plaintext (sk_pk k)) (pk_ciphertext (sk_pk k)) ->
  N.to_nat (picnic_signature_size (sk_params k)) <= len ->
  api_call P E st q qb buf len k msg ->
  exists st' t, run U (c_picnic_sign P (length msg) fuel) st = Some (st', t) /\
   (iv st' 2 = 1 /\ iv st' 3 = 0 \/
    exists sg, iv st' 5 = 1 /\ iv st' 10 = length sg /\ holds st' qb sg /\
      forall U' u st2 q2 g ps pk fuel', locals_ok U' -> env_bytes_ok (with_uninit E u) -> pk_wf pk -> pk_of P k pk -> fuel <= fuel' ->
      received_call P (with_uninit E u) st2 q2 g ps sg (pk_ciphertext pk) (firstn (4 * stateSizeWords P) (pk_plaintext pk)) msg ->
      exists st2' t2, run U' (c_picnic_verify P (length msg) fuel') st2 = Some (st2', t2) /\ iv st2' 6 = 1).
Proof.
  intros HU HP Hp Hf HE HC HW Hz HR Hlen HA. assert (HE' : env_bytes_ok (with_shake E)) by (apply HashProofs.shake_env; exact HE).
  pose proof (proj2 (ap_room _ _ _ _ _ _ _ _ _ HA)) as Hl.
  destruct (picnic_sign_code U E P st q qb buf len k msg fuel HU HP Hp HE HC HW HA) as (st' & t & R & _ & _ & M). exists st', t. split; [exact R|].
  assert (H3 : is_picnic3 (sk_params k) = true -> inverses_ok (with_shake E) P) by (rewrite Hp; discriminate).
  destruct (all_C03 (with_shake E) P fuel HE' HC k msg buf len HP H3 HW Hl) as [_ C03].
  destruct (C03 HR Hlen) as [X|(buf' & l & X)]; rewrite X in M; [left; exact M|right].
  destruct (all_C05 (with_shake E) P fuel HE' HC k msg buf len HP H3 HW Hl true buf' l X) as [C05 _]. destruct (C05 eq_refl) as (L1 & L2 & _).
  destruct M as (M1 & M2 & M3 & M4). exists (firstn l buf'). split; [exact M1|]. split; [rewrite firstn_length, M2; lia|].
  split; [split; [apply CodeP3Lin.pts_firstn, M3|apply Forall_firstn, M4]|].
  intros U' u st2 q2 g ps pk fuel' HU' Hu Hpk Hof Hfu HR2.
  assert (Ep : pk_params pk = sk_params k) by apply Hof.
  assert (V : picnic_verify (with_shake (with_uninit E u)) fuel' pk msg (firstn l buf') = Ok true).
  { apply (C01_pf (with_shake E) u P fuel fuel' k pk msg buf len buf' l); auto. apply (HashProofs.shake_env (with_uninit E u)), Hu. }
  pose proof (picnic_verify_code U' (with_uninit E u) P st2 q2 g ps (firstn l buf') pk msg fuel' HU') as D. rewrite Ep in D.
  specialize (D HP Hp Hf Hu HC Hpk HR2). rewrite V in D. destruct D as (z & t2 & R2 & _ & _ & D). eauto.
Qed.
