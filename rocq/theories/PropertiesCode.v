(** Property theorems: code with pointers. *)

From Coq Require Import List NArith Arith Bool.
From Verif Require Import Base Params Env Spec LowMC MiniC CodeLowMC CodeSpec.
From Verif Require Import ParamFacts CodeLowMCProofs CodeWitness Witness.
Import ListNotations.

(** C54: the LowMC code on memory with pointers computes LowMC: no access is out of bounds or misaligned, only
    the output changes, and it receives the ciphertext; also if plaintext and output are the same buffer. *)
Theorem C54_LowMC_code : forall U E P st qo pt key,
  locals_ok U -> wfP P -> constants_ok E P -> LowMC_call E P st qo pt key ->
  exists st' t o, run U (c_LowMCEnc P (PV 0 (IC 0)) (PV 1 (IC 0)) (PV 2 (IC 0)) 3 4 5) st = Some (st', t) /\
    pts (nx st) (mm st') qo o /\ bytes_ok o /\ length o = 4 * stateSizeWords P /\
    (forall i, bit o i = if i <? stateSizeBits P then lowmc_enc (lowmc_of E P) (bit key) (bit pt) i else false) /\
    chg (nx st) (mm st) (mm st') [(qo, 4 * stateSizeWords P)] /\
    iv st' = iv st /\ dv st' = dv st /\ pv st' = pv st /\ nx st' = nx st.
Proof. exact LowMC_code. Qed.
Print Assumptions C54_LowMC_code.

Example C54_example : exists P, get_param_set Picnic_L3_full = Some P /\ wfP P /\ locals_ok zero_locals /\ constants_ok toy_env P /\
  let W := stateSizeWords P in LowMC_call toy_env P (lowmc_start toy_env P (repeat 7%N (4 * W)) (repeat 9%N (4 * W))) (1, 0) (repeat 7%N (4 * W)) (repeat 9%N (4 * W)).
Proof.
  destruct (get_param_set Picnic_L3_full) as [P|] eqn:HP; [|discriminate HP]. exists P.
  split; [reflexivity|]. split; [exact (get_param_set_wfP _ _ HP)|]. split; [exact zero_locals_ok|].
  split; [exact (toy_constants_all _ _ HP)|]. cbv zeta.
  apply lowmc_call; try apply repeat_length; apply Forall_forall; intros x Hx; apply repeat_spec in Hx; subst x; reflexivity.
Qed.

(** C55: the addresses accessed, branches taken and iteration counts of the LowMC code do not depend on what memory
    contains, in particular not on the key or plaintext. *)
Theorem C55_LowMC_constant_time : forall U U' P x y,
  locals_ok U -> locals_ok U' -> same_public x y ->
  let c := c_LowMCEnc P (PV 0 (IC 0)) (PV 1 (IC 0)) (PV 2 (IC 0)) 3 4 5 in
  observed (run U c x) = observed (run U' c y).
Proof. exact LowMC_constant_time. Qed.
Print Assumptions C55_LowMC_constant_time.

(** Two keys in the same memory; the observations exist and are not empty. A program that branches on a
    byte of the key is told apart. *)
Example C55_example : exists P, get_param_set Picnic_L1_full = Some P /\
  let W := stateSizeWords P in let st k := lowmc_start toy_env P (repeat 7%N (4 * W)) (repeat k (4 * W)) in
  same_public (st 0%N) (st 1%N) /\
  (let c := Seq (Ld 1 0 (PV 2 (IC 0))) (IfD (DV 0) Skip (Ld 1 0 (PV 1 (IC 0)))) in
   observed (run zero_locals c (st 0%N)) <> observed (run zero_locals c (st 1%N))).
Proof.
  destruct (get_param_set Picnic_L1_full) as [P|] eqn:HP; [|discriminate HP]. exists P.
  split; [reflexivity|]. cbv zeta. split; [apply lowmc_same_public; rewrite !repeat_length; reflexivity|].
  injection HP as <-. discriminate.
Qed.
