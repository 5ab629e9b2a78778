(** Property theorems: the verifier's ZKB++ computation with pointers. *)

From Coq Require Import List NArith Arith Bool Lia.
From Verif Require Import Base Params Env Spec LowMC Picnic1 MiniC CodeLowMC CodeZkb CodeSpec CodeZkbSpec CodeVerifySpec.
From Verif Require Import BaseFacts ParamFacts CodeWitness CodeZkbThm CodeZkbWitness CodeZkbVerThm CodeZkbVerWitness Witness.
Import ListNotations.

(** C59: the verifier's ZKB++ computation of one round on memory with pointers, for any challenge and whatever the
    signature put into the views: no access is out of bounds or misaligned, only scratch memory, communicated bits of
    the first party and output shares change, and they are what the signature model works with. *)
Theorem C59_mpc_LowMC_verify_code : forall U E P st T V pt ch qs qc qo,
  locals_ok U -> wfP P -> env_bytes_ok E -> constants_ok E P -> ver_call E P st T V pt ch qs qc qo ->
  exists st' t V1 V2, run U (c_mpc_LowMC_verify P 0 1 2 3 (PV 4 (IC 0)) (PV 5 (IC 0)) 6 7 8 0 (IV 1)) st = Some (st', t) /\
    mpc_LowMC_verify E P (V 0) (V 1) (T 0, T 1) (16 * stateSizeWords P) pt ch = Ok (V1, V2) /\
    pts (nx st) (mm st') qc (v_communicatedBits V1) /\ pts (nx st) (mm st') (qo 0) (v_outputShare V1) /\ pts (nx st) (mm st') (qo 1) (v_outputShare V2) /\
    chg (nx st) (mm st) (mm st') (ver_writes P (V 0) qs qc qo) /\
    iv st' = upd (iv st) 0 (3 * numSboxes P * numRounds P) /\ dv st' = dv st /\ pv st' = pv st /\ nx st' = nx st.
Proof. exact mpc_LowMC_verify_code. Qed.
Print Assumptions C59_mpc_LowMC_verify_code.

(** Two views in a memory where every object has a block of its own. *)
Example C59_example : exists P, get_param_set Picnic_L1_full = Some P /\ wfP P /\ locals_ok zero_locals /\ env_bytes_ok toy_env /\ constants_ok toy_env P /\
  let m := 3 * numSboxes P * numRounds P in
  let T j := repeat (N.of_nat (5 + j)) m in
  let V j := mkView (repeat (N.of_nat (9 + j)) (stateSizeBits P)) (repeat 3%N m) (repeat 0%N (stateSizeBytes P)) in
  let pt := repeat 7%N (4 * stateSizeWords P) in
  ver_call toy_env P (ver_start toy_env P T V pt 2) T V pt 2 (9, 0) (4, 0) (fun i => (6 + i, 0)).
Proof.
  destruct (get_param_set Picnic_L1_full) as [P|] eqn:HP; [|discriminate HP]. exists P.
  pose proof (toy_constants_all _ _ HP) as HC.
  split; [reflexivity|]. split; [exact (get_param_set_wfP _ _ HP)|]. split; [exact zero_locals_ok|]. split; [exact toy_env_bytes|]. split; [exact HC|]. cbv zeta.
  assert (R : forall x k, (x < 256)%N -> bytes_ok (repeat x k)) by (intros x k Hx; apply Forall_forall; intros y Hy; apply repeat_spec in Hy; subst y; exact Hx).
  apply ver_start_call; [exact HC|apply R; lia|apply repeat_length| |]; intros j Hj; cbn [v_inputShare v_communicatedBits v_outputShare]; rewrite ?repeat_length.
  - split; [apply R; lia|lia].
  - split; [lia|]. split; [apply R; lia|]. split; [lia|]. split; [apply R; lia|]. split; [reflexivity|apply R; lia].
Qed.

(** C60: signer and verifier programs agree. If the signer's computation ended in a memory [st'] and the verifier,
    in a memory of its own, holds the tapes and input shares of parties [e] and [e+1] and the communicated bits of
    [e+1] found in [st'], then its computation leaves the communicated bits of [e] and both output shares found in
    [st'], whatever its buffers contained before. *)
Theorem C60_verify_replays_code : forall U U2 E P st st2 T V pt e qs qc qo T2 V2 qs2 qc2 qo2 st' t,
  locals_ok U -> locals_ok U2 -> wfP P -> env_bytes_ok E -> constants_ok E P -> e < 3 ->
  mpc_call E P st T V pt qs qc qo -> ver_call E P st2 T2 V2 pt e qs2 qc2 qo2 ->
  run U (c_mpc_LowMC P 0 1 2 3 (PV 4 (IC 0)) (PV 5 (IC 0)) 6 7 8 0) st = Some (st', t) ->
  (forall j, j < 2 -> T2 j = T ((e + j) mod 3) /\ v_inputShare (V2 j) = v_inputShare (V ((e + j) mod 3))) ->
  pts (nx st) (mm st') (qc ((e + 1) mod 3)) (v_communicatedBits (V2 1)) -> length (v_communicatedBits (V2 1)) = length (v_communicatedBits (V ((e + 1) mod 3))) ->
  exists st2' t2 C C' O O1, run U2 (c_mpc_LowMC_verify P 0 1 2 3 (PV 4 (IC 0)) (PV 5 (IC 0)) 6 7 8 0 (IV 1)) st2 = Some (st2', t2) /\
    pts (nx st) (mm st') (qc e) C /\ pts (nx st2) (mm st2') qc2 C' /\ length C = length (v_communicatedBits (V e)) /\ length C' = length (v_communicatedBits (V2 0)) /\
    (forall i, i < 3 * numSboxes P * numRounds P -> bit C' i = bit C i) /\
    length O = stateSizeBytes P /\ pts (nx st) (mm st') (qo e) O /\ pts (nx st2) (mm st2') (qo2 0) O /\
    length O1 = stateSizeBytes P /\ pts (nx st) (mm st') (qo ((e + 1) mod 3)) O1 /\ pts (nx st2) (mm st2') (qo2 1) O1.
Proof. exact verify_replays_code. Qed.
Print Assumptions C60_verify_replays_code.

(** A run of the signer and a memory of the verifier as required. *)
Example C60_example : exists P, get_param_set Picnic_L1_full = Some P /\ forall e, e < 3 ->
  let m := 3 * numSboxes P * numRounds P in
  let T j := repeat (N.of_nat (5 + j)) m in
  let V j := mkView (repeat (N.of_nat (9 + j)) (stateSizeBits P)) (repeat 3%N m) (repeat 0%N (stateSizeBytes P)) in
  let pt := repeat 7%N (4 * stateSizeWords P) in
  let st := mpc_start toy_env P T V pt in
  let T2 j := T ((e + j) mod 3) in
  exists st' t V2,
    mpc_call toy_env P st T V pt (13, 0) (fun i => (6 + i, 0)) (fun i => (9 + i, 0)) /\
    run zero_locals (c_mpc_LowMC P 0 1 2 3 (PV 4 (IC 0)) (PV 5 (IC 0)) 6 7 8 0) st = Some (st', t) /\
    ver_call toy_env P (ver_start toy_env P T2 V2 pt e) T2 V2 pt e (9, 0) (4, 0) (fun i => (6 + i, 0)) /\
    (forall j, j < 2 -> v_inputShare (V2 j) = v_inputShare (V ((e + j) mod 3))) /\
    pts (nx st) (mm st') (6 + (e + 1) mod 3, 0) (v_communicatedBits (V2 1)) /\ length (v_communicatedBits (V2 1)) = length (v_communicatedBits (V ((e + 1) mod 3))).
Proof.
  destruct (get_param_set Picnic_L1_full) as [P|] eqn:HP; [|discriminate HP]. exists P.
  pose proof (toy_constants_all _ _ HP) as HC. split; [reflexivity|]. intros e He m T V pt st T2.
  assert (R : forall x k, (x < 256)%N -> bytes_ok (repeat x k)) by (intros x k Hx; apply Forall_forall; intros y Hy; apply repeat_spec in Hy; subst y; exact Hx).
  assert (M : mpc_call toy_env P st T V pt (13, 0) (fun i => (6 + i, 0)) (fun i => (9 + i, 0))).
  { apply mpc_start_call; [exact HC|apply R; lia|apply repeat_length| |]; intros j Hj; unfold T, V; cbn [v_inputShare v_communicatedBits v_outputShare]; rewrite ?repeat_length; unfold m.
    - split; [apply R; lia|lia].
    - split; [lia|]. split; [apply R; lia|]. split; [lia|]. split; [apply R; lia|]. split; [reflexivity|apply R; lia]. }
  destruct (replay_case zero_locals toy_env P st T V pt e _ _ _ zero_locals_ok (get_param_set_wfP _ _ HP) toy_env_bytes HC He M) as (st' & t & V2 & A & B).
  exists st', t, V2. split; [exact M|]. split; [exact A|]. exact B.
Qed.

(** C61: the addresses accessed, branches taken and iteration counts of the verifier's computation do not depend on
    what memory contains; of the arguments only the challenge matters. *)
Theorem C61_mpc_LowMC_verify_constant_time : forall U U' P x y,
  locals_ok U -> locals_ok U' -> same_public x y ->
  let c := c_mpc_LowMC_verify P 0 1 2 3 (PV 4 (IC 0)) (PV 5 (IC 0)) 6 7 8 0 (IV 1) in
  observed (run U c x) = observed (run U' c y).
Proof. exact mpc_LowMC_verify_constant_time. Qed.
Print Assumptions C61_mpc_LowMC_verify_constant_time.

(** Two sets of views; a program that branches on a byte of a share is told apart. *)
Example C61_example : exists P, get_param_set Picnic_L1_full = Some P /\
  let V k (j : nat) := mkView (repeat k (stateSizeBytes P)) (repeat 0%N (stateSizeBytes P)) (repeat 0%N (stateSizeBytes P)) in
  let st k := ver_start toy_env P (fun _ => repeat k (stateSizeBytes P)) (V k) (repeat 7%N (stateSizeBytes P)) 1 in
  same_public (st 0%N) (st 1%N) /\
  (let c := Seq (Ld 1 0 (PV 1 (IC 0))) (IfD (DV 0) Skip (Ld 1 0 (PV 1 (IC 0)))) in
   observed (run zero_locals c (st 0%N)) <> observed (run zero_locals c (st 1%N))).
Proof.
  destruct (get_param_set Picnic_L1_full) as [P|] eqn:HP; [|discriminate HP]. exists P.
  split; [reflexivity|]. cbv zeta. split.
  - apply ver_same_public; intros; cbn [v_inputShare v_communicatedBits v_outputShare]; rewrite ?repeat_length; auto.
  - injection HP as <-. discriminate.
Qed.
