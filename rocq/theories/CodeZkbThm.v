(** The signer's ZKB++ computation on memory with pointers: theorem forms. *)

From Coq Require Import List NArith Arith Bool Lia ZifyBool ZifyNat ZifyN.
From Verif Require Import Base Params Env Spec LowMC Picnic1 MiniC CodeLowMC CodeZkb CodeSpec CodeZkbSpec.
From Verif Require Import BaseFacts ParamFacts LowMCFacts Hint ZkbMpc MiniCFacts CodeRules CodeLowMCProofs CodeZkbRun.
Import ListNotations.

Lemma mpc_LowMC_sum E P T V pt slab V' : wfP P -> env_bytes_ok E -> constants_ok E P -> 24 * stateSizeWords P <= slab ->
  4 * stateSizeWords P <= length pt -> bytes_ok pt ->
  (forall j, j < 3 -> 3 * numSboxes P * numRounds P <= 8 * length (T j)) ->
  (forall j, j < 3 -> stateSizeBits P <= 8 * length (v_inputShare (V j)) /\ bytes_ok (v_inputShare (V j)) /\
     3 * numSboxes P * numRounds P <= 8 * length (v_communicatedBits (V j)) /\ bytes_ok (v_communicatedBits (V j)) /\
     length (v_outputShare (V j)) = stateSizeBytes P /\ bytes_ok (v_outputShare (V j))) ->
  mpc_LowMC E P (T 0, T 1, T 2) (V 0, V 1, V 2) pt slab = Ok V' ->
  forall i, xorb (xorb (bit (v_outputShare (tget V' 0)) i) (bit (v_outputShare (tget V' 1)) i)) (bit (v_outputShare (tget V' 2)) i) =
    if i <? stateSizeBits P then
      lowmc_enc (lowmc_of E P) (fun k => xorb (xorb (bit (v_inputShare (V 0)) k) (bit (v_inputShare (V 1)) k)) (bit (v_inputShare (V 2)) k)) (bit pt) i
    else false.
Proof.
  intros HP HE HC Hs Hl Hb HT HV He i.
  assert (Tj : forall j, j < 3 -> tget (T 0, T 1, T 2) j = T j) by (intros j Hj; destruct (lt3 j Hj) as [-> | [-> | ->]]; reflexivity).
  assert (Vj : forall j, j < 3 -> tget (V 0, V 1, V 2) j = V j) by (intros j Hj; destruct (lt3 j Hj) as [-> | [-> | ->]]; reflexivity).
  pose proof (mpc_LowMC_spec E P HP HE HC (T 0, T 1, T 2) (V 0, V 1, V 2) pt slab Hs Hl Hb
    ltac:(intros j Hj; rewrite Tj by exact Hj; apply HT, Hj) ltac:(intros j Hj; rewrite Vj by exact Hj; apply HV, Hj)) as H.
  rewrite He in H. cbn [ok] in H. cbv zeta in H.
  destruct (H 0 ltac:(lia)) as (_ & _ & _ & _ & (_ & _ & O0) & G0).
  destruct (H 1 ltac:(lia)) as (_ & _ & _ & _ & (_ & _ & O1) & G1).
  destruct (H 2 ltac:(lia)) as (_ & _ & _ & _ & (_ & _ & O2) & G2).
  rewrite O0, O1, O2. destruct (Nat.ltb_spec i (stateSizeBits P)) as [Hi|Hi]; [|reflexivity].
  exact (gates3_correct (lowmc_of E P) _ _ _ _ _ _ _ _ _ _ (wf_m P HP) G0 G1 G2 i Hi).
Qed.

Lemma mpc_LowMC_code U E P st T V pt qs qc qo :
  locals_ok U -> wfP P -> env_bytes_ok E -> constants_ok E P -> mpc_call E P st T V pt qs qc qo ->
  exists st' t V', run U (c_mpc_LowMC P 0 1 2 3 (PV 4 (IC 0)) (PV 5 (IC 0)) 6 7 8 0) st = Some (st', t) /\
    mpc_LowMC E P (T 0, T 1, T 2) (V 0, V 1, V 2) pt (24 * stateSizeWords P) = Ok V' /\
    (forall j, j < 3 -> pts (nx st) (mm st') (qc j) (v_communicatedBits (tget V' j)) /\ pts (nx st) (mm st') (qo j) (v_outputShare (tget V' j))) /\
    (forall i, xorb (xorb (bit (v_outputShare (tget V' 0)) i) (bit (v_outputShare (tget V' 1)) i)) (bit (v_outputShare (tget V' 2)) i) =
       if i <? stateSizeBits P then
         lowmc_enc (lowmc_of E P) (fun k => xorb (xorb (bit (v_inputShare (V 0)) k) (bit (v_inputShare (V 1)) k)) (bit (v_inputShare (V 2)) k)) (bit pt) i
       else false) /\
    chg (nx st) (mm st) (mm st') (mpc_writes P V qs qc qo) /\
    iv st' = upd (iv st) 0 (3 * numSboxes P * numRounds P) /\ dv st' = dv st /\ pv st' = pv st /\ nx st' = nx st.
Proof.
  intros HU HP HE HC HM.
  pose proof (runs_mpc_LowMC U HU E P HP HE HC st T V pt qs qc qo HM (fun y => exists V',
    mpc_LowMC E P (T 0, T 1, T 2) (V 0, V 1, V 2) pt (24 * stateSizeWords P) = Ok V' /\
    (forall j, j < 3 -> pts (nx st) (mm y) (qc j) (v_communicatedBits (tget V' j)) /\ pts (nx st) (mm y) (qo j) (v_outputShare (tget V' j))) /\
    chg (nx st) (mm st) (mm y) (mpc_writes P V qs qc qo) /\
    iv y = upd (iv st) 0 (3 * numSboxes P * numRounds P) /\ dv y = dv st /\ pv y = pv st /\ nx y = nx st)) as H.
  unfold runs in H. destruct (run U _ st) as [[y t]|].
  - destruct H as (V' & H1 & H2 & H3 & H4).
    { intros m' u V' A B C _. exists V'. cbn [iv dv pv mm nx]. split; [exact A|]. split; [intros j Hj; split; apply (B j Hj)|]. split; [exact C|]. auto. }
    exists y, t, V'. split; [reflexivity|]. split; [exact H1|]. split; [exact H2|]. split; [|split; [exact H3|exact H4]].
    destruct HM as [_ (qt & _ & HT) (qi & _ & HI) [_ Hc] [_ Ho] (qp & _ & (_ & Bp & _) & _ & Lp) _ _ _ _ _].
    refine (mpc_LowMC_sum E P T V pt (24 * stateSizeWords P) V' HP HE HC _ _ Bp _ _ H1); [lia|lia|intros j Hj; apply HT, Hj|].
    intros j Hj. destruct (HI j Hj) as ((_ & Bi & _) & _ & Li). destruct (Hc j Hj) as [[_ Bc] Lc]. destruct (Ho j Hj) as [[_ Bo] Lo]. auto 10.
  - exfalso. apply H. intros m' u V' A B C _. exists V'. cbn [iv dv pv mm nx]. split; [exact A|]. split; [intros j Hj; split; apply (B j Hj)|]. split; [exact C|]. auto.
Qed.

Lemma mpc_LowMC_constant_time U U' P x y : locals_ok U -> locals_ok U' -> same_public x y ->
  let c := c_mpc_LowMC P 0 1 2 3 (PV 4 (IC 0)) (PV 5 (IC 0)) 6 7 8 0 in
  observed (run U c x) = observed (run U' c y).
Proof. intros HU HU' H c. apply observed_same; auto. Qed.
