(** Property theorems: the ZKB++ computation with pointers. *)

From Coq Require Import List NArith Arith Bool Lia.
From Verif Require Import Base Params Env Spec LowMC Picnic1 MiniC CodeLowMC CodeZkb CodeSpec CodeZkbSpec.
From Verif Require Import BaseFacts ParamFacts CodeWitness CodeZkbThm CodeZkbWitness Witness.
Import ListNotations.

(** C56: the signer's ZKB++ computation on memory with pointers: no access is out of bounds or misaligned, only
    scratch memory, communicated bits and output shares change, they are what the signature model works with, and
    the output shares add up to the LowMC encryption of the plaintext under the sum of the input shares. *)
Theorem C56_mpc_LowMC_code : forall U E P st T V pt qs qc qo,
  locals_ok U -> wfP P -> env_bytes_ok E -> constants_ok E P -> mpc_call E P st T V pt qs qc qo ->
  exists st' t V', run U (c_mpc_LowMC P 0 1 2 3 (PV 4 (IC 0)) (PV 5 (IC 0)) 6 7 8 0) st = Some (st', t) /\
    mpc_LowMC E P (T 0, T 1, T 2) (V 0, V 1, V 2) pt (24 * stateSizeWords P) = Ok V' /\
    (forall j, j < 3 -> pts (nx st) (mm st') (qc j) (v_communicatedBits (tget V' j)) /\ pts (nx st) (mm st') (qo j) (v_outputShare (tget V' j))) /\
    (forall i, xorb (xorb (bit (v_outputShare (tget V' 0)) i) (bit (v_outputShare (tget V' 1)) i)) (bit (v_outputShare (tget V' 2)) i) =
       if i <? stateSizeBits P then
         lowmc_enc (lowmc_of E P) (fun k => xorb (xorb (bit (v_inputShare (V 0)) k) (bit (v_inputShare (V 1)) k)) (bit (v_inputShare (V 2)) k)) (bit pt) i
       else false) /\
    chg (nx st) (mm st) (mm st') (mpc_writes P V qs qc qo) /\
    iv st' = upd (iv st) 0 (3 * numSboxes P * numRounds P) /\ dv st' = dv st /\ pv st' = pv st /\ nx st' = nx st.
Proof. exact mpc_LowMC_code. Qed.
Print Assumptions C56_mpc_LowMC_code.

(** Three shares in a memory where every object has a block of its own. *)
Example C56_example : exists P, get_param_set Picnic_L1_full = Some P /\ wfP P /\ locals_ok zero_locals /\ env_bytes_ok toy_env /\ constants_ok toy_env P /\
  let m := 3 * numSboxes P * numRounds P in
  let T j := repeat (N.of_nat (5 + j)) m in
  let V j := mkView (repeat (N.of_nat (9 + j)) (stateSizeBits P)) (repeat 3%N m) (repeat 0%N (stateSizeBytes P)) in
  let pt := repeat 7%N (4 * stateSizeWords P) in
  mpc_call toy_env P (mpc_start toy_env P T V pt) T V pt (13, 0) (fun i => (6 + i, 0)) (fun i => (9 + i, 0)).
Proof.
  destruct (get_param_set Picnic_L1_full) as [P|] eqn:HP; [|discriminate HP]. exists P.
  pose proof (toy_constants_all _ _ HP) as HC.
  split; [reflexivity|]. split; [exact (get_param_set_wfP _ _ HP)|]. split; [exact zero_locals_ok|]. split; [exact toy_env_bytes|]. split; [exact HC|]. cbv zeta.
  assert (R : forall x k, (x < 256)%N -> bytes_ok (repeat x k)) by (intros x k Hx; apply Forall_forall; intros y Hy; apply repeat_spec in Hy; subst y; exact Hx).
  apply mpc_start_call; [exact HC|apply R; lia|apply repeat_length| |]; intros j Hj; cbn [v_inputShare v_communicatedBits v_outputShare]; rewrite ?repeat_length.
  - split; [apply R; lia|lia].
  - split; [lia|]. split; [apply R; lia|]. split; [lia|]. split; [apply R; lia|]. split; [reflexivity|apply R; lia].
Qed.

(** C57: the addresses accessed, branches taken and iteration counts of that computation do not depend on what memory
    contains, in particular not on the shares of the key and the random tapes. *)
Theorem C57_mpc_LowMC_constant_time : forall U U' P x y,
  locals_ok U -> locals_ok U' -> same_public x y ->
  let c := c_mpc_LowMC P 0 1 2 3 (PV 4 (IC 0)) (PV 5 (IC 0)) 6 7 8 0 in
  observed (run U c x) = observed (run U' c y).
Proof. exact mpc_LowMC_constant_time. Qed.
Print Assumptions C57_mpc_LowMC_constant_time.

(** Two sets of shares and tapes; a program that branches on a byte of a share is told apart. *)
Example C57_example : exists P, get_param_set Picnic_L1_full = Some P /\
  let V k (j : nat) := mkView (repeat k (stateSizeBytes P)) (repeat 0%N (stateSizeBytes P)) (repeat 0%N (stateSizeBytes P)) in
  let st k := mpc_start toy_env P (fun _ => repeat k (stateSizeBytes P)) (V k) (repeat 7%N (stateSizeBytes P)) in
  same_public (st 0%N) (st 1%N) /\
  (let c := Seq (Ld 1 0 (PV 1 (IC 0))) (IfD (DV 0) Skip (Ld 1 0 (PV 1 (IC 0)))) in
   observed (run zero_locals c (st 0%N)) <> observed (run zero_locals c (st 1%N))).
Proof.
  destruct (get_param_set Picnic_L1_full) as [P|] eqn:HP; [|discriminate HP]. exists P.
  split; [reflexivity|]. cbv zeta. split.
  - apply mpc_same_public; intros; cbn [v_inputShare v_communicatedBits v_outputShare]; rewrite ?repeat_length; auto.
  - injection HP as <-. discriminate.
Qed.
