(** The verifier's ZKB++ computation on memory with pointers: theorem forms, and a memory in which it can be called. *)

From Coq Require Import List NArith Arith Bool Lia ZifyBool ZifyNat ZifyN.
From Verif Require Import Base Params Env Spec LowMC Picnic1 MiniC CodeLowMC CodeZkb CodeSpec CodeZkbSpec CodeVerifySpec.
From Verif Require Import BaseFacts ParamFacts LowMCFacts Hint ZkbMpc Zkb MiniCFacts CodeRules CodeLowMCProofs CodeZkbProofs CodeWitness CodeZkbRun CodeZkbThm CodeZkbWitness
  CodeZkbVer CodeZkbVerRun.
Import ListNotations.

Lemma ver_call_sizes E P st T V pt ch qs qc qo : ver_call E P st T V pt ch qs qc qo ->
  4 * stateSizeWords P <= length pt /\ bytes_ok pt /\
  (forall j, j < 2 -> 3 * numSboxes P * numRounds P <= 8 * length (dget (T 0, T 1) j)) /\
  (forall j, j < 2 ->
     stateSizeBits P <= 8 * length (v_inputShare (dget (V 0, V 1) j)) /\ bytes_ok (v_inputShare (dget (V 0, V 1) j)) /\
     3 * numSboxes P * numRounds P <= 8 * length (v_communicatedBits (dget (V 0, V 1) j)) /\ bytes_ok (v_communicatedBits (dget (V 0, V 1) j)) /\
     length (v_outputShare (dget (V 0, V 1) j)) = stateSizeBytes P /\ bytes_ok (v_outputShare (dget (V 0, V 1) j))).
Proof.
  intros [_ _ (qt & _ & HT) (qi & _ & HI) (q2 & _ & [_ Bc] & Lc & (_ & Bc2 & _) & Lc2) [_ Ho] (qp & _ & (_ & Bp & _) & _ & Lp) _ _ _ _ _].
  split; [lia|]. split; [exact Bp|].
  assert (Tj : forall j, j < 2 -> dget (T 0, T 1) j = T j) by (intros j Hj; destruct (lt2_cases j Hj) as [-> | ->]; reflexivity).
  assert (Vj : forall j, j < 2 -> dget (V 0, V 1) j = V j) by (intros j Hj; destruct (lt2_cases j Hj) as [-> | ->]; reflexivity).
  split; intros j Hj; [rewrite Tj by exact Hj; apply HT, Hj|]. rewrite Vj by exact Hj.
  destruct (HI j Hj) as ((_ & Bi & _) & _ & Li). destruct (Ho j Hj) as [[_ Bo] Lo]. destruct (lt2_cases j Hj) as [-> | ->]; auto 10.
Qed.

Lemma nth_error_same {A} (l : list A) : forall l', (forall i, nth_error l i = nth_error l' i) -> l = l'.
Proof.
  induction l as [|x l IH]; intros [|y l'] H; [reflexivity|discriminate (H 0)|discriminate (H 0)|].
  pose proof (H 0) as H0. injection H0 as <-. f_equal. apply IH. intros i. exact (H (S i)).
Qed.

Lemma pts_inj n m p l l' : pts n m p l -> pts n m p l' -> length l = length l' -> l = l'.
Proof.
  intros [_ A] [_ B] HL. apply nth_error_same. intros i. destruct (nth_error l i) as [x|] eqn:Ex, (nth_error l' i) as [y|] eqn:Ey; try reflexivity.
  - rewrite <- (A i x Ex). apply B, Ey.
  - apply nth_error_None in Ey. pose proof (proj1 (nth_error_Some l i) ltac:(congruence)). lia.
  - apply nth_error_None in Ex. pose proof (proj1 (nth_error_Some l' i) ltac:(congruence)). lia.
Qed.

Lemma mpc_LowMC_verify_code U E P st T V pt ch qs qc qo :
  locals_ok U -> wfP P -> env_bytes_ok E -> constants_ok E P -> ver_call E P st T V pt ch qs qc qo ->
  exists st' t V1 V2, run U (c_mpc_LowMC_verify P 0 1 2 3 (PV 4 (IC 0)) (PV 5 (IC 0)) 6 7 8 0 (IV 1)) st = Some (st', t) /\
    mpc_LowMC_verify E P (V 0) (V 1) (T 0, T 1) (16 * stateSizeWords P) pt ch = Ok (V1, V2) /\
    pts (nx st) (mm st') qc (v_communicatedBits V1) /\ pts (nx st) (mm st') (qo 0) (v_outputShare V1) /\ pts (nx st) (mm st') (qo 1) (v_outputShare V2) /\
    chg (nx st) (mm st) (mm st') (ver_writes P (V 0) qs qc qo) /\
    iv st' = upd (iv st) 0 (3 * numSboxes P * numRounds P) /\ dv st' = dv st /\ pv st' = pv st /\ nx st' = nx st.
Proof.
  intros HU HP HE HC HM.
  pose proof (runs_mpc_LowMC_verify U HU E P HP HE HC st T V pt ch qs qc qo HM (fun y => exists V1 V2,
    mpc_LowMC_verify E P (V 0) (V 1) (T 0, T 1) (16 * stateSizeWords P) pt ch = Ok (V1, V2) /\
    pts (nx st) (mm y) qc (v_communicatedBits V1) /\ pts (nx st) (mm y) (qo 0) (v_outputShare V1) /\ pts (nx st) (mm y) (qo 1) (v_outputShare V2) /\
    chg (nx st) (mm st) (mm y) (ver_writes P (V 0) qs qc qo) /\
    iv y = upd (iv st) 0 (3 * numSboxes P * numRounds P) /\ dv y = dv st /\ pv y = pv st /\ nx y = nx st)) as H.
  unfold runs in H. destruct (run U _ st) as [[y t]|].
  - destruct H as (V1 & V2 & H1).
    { intros m' u V1 V2 A B1 B2 B3 C _. exists V1, V2. cbn [iv dv pv mm nx]. split; [exact A|]. split; [exact B1|]. split; [exact B2|]. split; [exact B3|]. split; [exact C|]. auto. }
    exists y, t, V1, V2. split; [reflexivity|]. exact H1.
  - exfalso. apply H. intros m' u V1 V2 A B1 B2 B3 C _. exists V1, V2. cbn [iv dv pv mm nx]. split; [exact A|]. split; [exact B1|]. split; [exact B2|]. split; [exact B3|]. split; [exact C|]. auto.
Qed.

(** Views the signer computed, and two of them computed again. *)
Lemma verify_again E P T V pt slab V' e tmp T2 V2 W1 W2 : wfP P -> env_bytes_ok E -> constants_ok E P -> 24 * stateSizeWords P <= slab -> 16 * stateSizeWords P <= tmp ->
  4 * stateSizeWords P <= length pt -> bytes_ok pt -> e < 3 ->
  (forall j, j < 3 -> 3 * numSboxes P * numRounds P <= 8 * length (T j)) ->
  (forall j, j < 3 -> stateSizeBits P <= 8 * length (v_inputShare (V j)) /\ bytes_ok (v_inputShare (V j)) /\
     3 * numSboxes P * numRounds P <= 8 * length (v_communicatedBits (V j)) /\ bytes_ok (v_communicatedBits (V j)) /\
     length (v_outputShare (V j)) = stateSizeBytes P /\ bytes_ok (v_outputShare (V j))) ->
  mpc_LowMC E P (T 0, T 1, T 2) (V 0, V 1, V 2) pt slab = Ok V' ->
  (forall j, j < 2 -> T2 j = T ((e + j) mod 3) /\ v_inputShare (V2 j) = v_inputShare (V ((e + j) mod 3))) ->
  v_communicatedBits (V2 1) = v_communicatedBits (tget V' ((e + 1) mod 3)) ->
  3 * numSboxes P * numRounds P <= 8 * length (v_communicatedBits (V2 0)) /\ bytes_ok (v_communicatedBits (V2 0)) ->
  (forall j, j < 2 -> length (v_outputShare (V2 j)) = stateSizeBytes P /\ bytes_ok (v_outputShare (V2 j))) ->
  mpc_LowMC_verify E P (V2 0) (V2 1) (T2 0, T2 1) tmp pt e = Ok (W1, W2) ->
  (forall i, i < 3 * numSboxes P * numRounds P -> bit (v_communicatedBits W1) i = bit (v_communicatedBits (tget V' e)) i) /\
  v_outputShare W1 = v_outputShare (tget V' e) /\ v_outputShare W2 = v_outputShare (tget V' ((e + 1) mod 3)).
Proof.
  intros HP HE HC Hs Htm Hl Hb He HT HV Hr H2 Hc2 [Lc1 Bc1] Ho2 Hv.
  assert (Tj : forall j, j < 3 -> tget (T 0, T 1, T 2) j = T j) by (intros j Hj; destruct (lt3 j Hj) as [-> | [-> | ->]]; reflexivity).
  assert (Vj : forall j, j < 3 -> tget (V 0, V 1, V 2) j = V j) by (intros j Hj; destruct (lt3 j Hj) as [-> | [-> | ->]]; reflexivity).
  pose proof (mpc_LowMC_spec E P HP HE HC (T 0, T 1, T 2) (V 0, V 1, V 2) pt slab Hs Hl Hb
    ltac:(intros j Hj; rewrite Tj by exact Hj; apply HT, Hj) ltac:(intros j Hj; rewrite Vj by exact Hj; apply HV, Hj)) as H.
  rewrite Hr in H. cbn [ok] in H. cbv zeta in H.
  assert (Hx : (e + 1) mod 3 < 3) by (apply Nat.mod_upper_bound; lia).
  assert (E0 : (e + 0) mod 3 = e) by (rewrite Nat.add_0_r, Nat.mod_small by lia; reflexivity).
  destruct (H e He) as (_ & _ & _ & _ & O1 & G1). destruct (H _ Hx) as (_ & L2 & B2 & _ & O2 & _). unfold nxt in G1. rewrite (Vj e He) in O1. rewrite (Vj _ Hx) in O2, L2. 
  assert (G2 : gates (lowmc_of E P) (hst (lowmc_of E P) (cst e) (bit (v_inputShare (V e))) (bit pt) (bit (v_communicatedBits (tget V' e))))
    (hst (lowmc_of E P) (cst ((e + 1) mod 3)) (bit (v_inputShare (V ((e + 1) mod 3)))) (bit pt) (bit (v_communicatedBits (tget V' ((e + 1) mod 3)))))
    (bit (v_communicatedBits (tget V' e))) (bit (T e)) (bit (T ((e + 1) mod 3)))) by (clear - G1 He; destruct (lt3 e He) as [-> | [-> | ->]]; exact G1).
  clear G1. rename G2 into G1.
  destruct (H2 0 ltac:(lia)) as [T0 I0], (H2 1 ltac:(lia)) as [T1 I1]. rewrite E0 in T0, I0.
  pose proof (mpc_LowMC_verify_spec E P HP HE HC (T2 0, T2 1) (V2 0) (V2 1) tmp pt e Htm Hl Hb) as K. rewrite Hv in K. cbn [ok] in K. cbv zeta in K.
  cbn [dget fst snd] in K. destruct K as (_ & _ & _ & _ & _ & _ & O1' & O2' & G').
  - intros j Hj. destruct (lt2_cases j Hj) as [-> | ->]; cbn [dget fst snd]; [rewrite T0|rewrite T1]; apply HT; auto.
  - intros j Hj. destruct (lt2_cases j Hj) as [-> | ->]; cbn [dget fst snd].
    + rewrite I0. destruct (HV e He) as (A & B & _). split; [exact A|]. split; [exact B|]. split; [exact Lc1|]. split; [exact Bc1|]. apply (Ho2 0). lia.
    + rewrite I1, Hc2, L2. destruct (HV _ Hx) as (A & B & C & _). split; [exact A|]. split; [exact B|]. split; [exact C|]. split; [exact B2|]. apply (Ho2 1). lia.
  - rewrite I0, ?I1, T0, T1, Hc2 in *.
    assert (Fe : (e =? 2) = cst ((e + 1) mod 3)) by (destruct (lt3 e He) as [-> | [-> | ->]]; reflexivity). rewrite Fe in O2', G'.
    change (e =? 0) with (cst e) in O1', G'.
    assert (Hb1 : forall i, i < 3 * numSboxes P * numRounds P -> bit (v_communicatedBits W1) i = bit (v_communicatedBits (tget V' e)) i).
    { exact (gates2_unique (lowmc_of E P) _ _ _ _ _ _ _ _ _ _ (wf_m P HP) G' G1). }
    split; [exact Hb1|]. split.
    + eapply out_share_unique; [exact O1'|exact O1|]. apply (hst_ext (lowmc_of E P)); [exact (wf_m P HP)|intros i _; reflexivity|intros i _; reflexivity|exact Hb1].
    + eapply out_share_unique; [exact O2'|exact O2|]. intros i _. reflexivity.
Qed.

Lemma verify_replays_code U U2 E P st st2 T V pt e qs qc qo T2 V2 qs2 qc2 qo2 st' t :
  locals_ok U -> locals_ok U2 -> wfP P -> env_bytes_ok E -> constants_ok E P -> e < 3 ->
  mpc_call E P st T V pt qs qc qo -> ver_call E P st2 T2 V2 pt e qs2 qc2 qo2 ->
  run U (c_mpc_LowMC P 0 1 2 3 (PV 4 (IC 0)) (PV 5 (IC 0)) 6 7 8 0) st = Some (st', t) ->
  (forall j, j < 2 -> T2 j = T ((e + j) mod 3) /\ v_inputShare (V2 j) = v_inputShare (V ((e + j) mod 3))) ->
  pts (nx st) (mm st') (qc ((e + 1) mod 3)) (v_communicatedBits (V2 1)) -> length (v_communicatedBits (V2 1)) = length (v_communicatedBits (V ((e + 1) mod 3))) ->
  exists st2' t2 C C' O O1, run U2 (c_mpc_LowMC_verify P 0 1 2 3 (PV 4 (IC 0)) (PV 5 (IC 0)) 6 7 8 0 (IV 1)) st2 = Some (st2', t2) /\
    pts (nx st) (mm st') (qc e) C /\ pts (nx st2) (mm st2') qc2 C' /\ length C = length (v_communicatedBits (V e)) /\ length C' = length (v_communicatedBits (V2 0)) /\
    (forall i, i < 3 * numSboxes P * numRounds P -> bit C' i = bit C i) /\
    length O = stateSizeBytes P /\ pts (nx st) (mm st') (qo e) O /\ pts (nx st2) (mm st2') (qo2 0) O /\
    length O1 = stateSizeBytes P /\ pts (nx st) (mm st') (qo ((e + 1) mod 3)) O1 /\ pts (nx st2) (mm st2') (qo2 1) O1.
Proof.
  intros HU HU2 HP HE HC He HM HM2 Hr H2 Hp2 Lp2.
  destruct (mpc_LowMC_code U E P st T V pt qs qc qo HU HP HE HC HM) as (z & tz & V' & Hz & HV' & Hpts & _). rewrite Hr in Hz. injection Hz as <- <-.
  destruct (mpc_LowMC_verify_code U2 E P st2 T2 V2 pt e qs2 qc2 qo2 HU2 HP HE HC HM2) as (st2' & t2 & W1 & W2 & R2 & M2 & Q1 & Q2 & Q3 & _).
  assert (Hx : (e + 1) mod 3 < 3) by (apply Nat.mod_upper_bound; lia).
  destruct (ver_call_sizes _ _ _ _ _ _ _ _ _ _ HM2) as (Lp & Bp & _ & HV2).
  assert (HT : forall j, j < 3 -> 3 * numSboxes P * numRounds P <= 8 * length (T j)).
  { destruct (mc_tapes _ _ _ _ _ _ _ _ _ HM) as (q & _ & A). intros j Hj. apply A, Hj. }
  assert (HV : forall j, j < 3 -> stateSizeBits P <= 8 * length (v_inputShare (V j)) /\ bytes_ok (v_inputShare (V j)) /\
     3 * numSboxes P * numRounds P <= 8 * length (v_communicatedBits (V j)) /\ bytes_ok (v_communicatedBits (V j)) /\
     length (v_outputShare (V j)) = stateSizeBytes P /\ bytes_ok (v_outputShare (V j))).
  { destruct HM as [_ _ (qi & _ & HI) [_ Hc] [_ Ho] _ _ _ _ _ _]. intros j Hj.
    destruct (HI j Hj) as ((_ & Bi & _) & _ & Li). destruct (Hc j Hj) as [[_ Bc] Lc]. destruct (Ho j Hj) as [[_ Bo] Lo]. auto 10. }
  assert (Tj : forall j, j < 3 -> tget (T 0, T 1, T 2) j = T j) by (intros j Hj; destruct (lt3 j Hj) as [-> | [-> | ->]]; reflexivity).
  assert (Vj : forall j, j < 3 -> tget (V 0, V 1, V 2) j = V j) by (intros j Hj; destruct (lt3 j Hj) as [-> | [-> | ->]]; reflexivity).
  pose proof (mpc_LowMC_spec E P HP HE HC (T 0, T 1, T 2) (V 0, V 1, V 2) pt (24 * stateSizeWords P) (le_n _) Lp Bp
    ltac:(intros j Hj; rewrite Tj by exact Hj; apply HT, Hj) ltac:(intros j Hj; rewrite Vj by exact Hj; apply HV, Hj)) as H.
  rewrite HV' in H. cbn [ok] in H. cbv zeta in H.
  pose proof (mpc_LowMC_verify_spec E P HP HE HC (T2 0, T2 1) (V2 0) (V2 1) (16 * stateSizeWords P) pt e (le_n _) Lp Bp) as K. rewrite M2 in K. cbn [ok] in K. cbv zeta in K.
  assert (Hc2 : v_communicatedBits (V2 1) = v_communicatedBits (tget V' ((e + 1) mod 3))).
  { destruct (H _ Hx) as (_ & L & _). rewrite (Vj _ Hx) in L. apply (pts_inj _ _ _ _ _ Hp2 (proj1 (Hpts _ Hx))). congruence. }
  destruct (HV2 0 ltac:(lia)) as (_ & _ & A1 & A2 & _). cbn [dget fst snd] in A1, A2.
  destruct (verify_again E P T V pt (24 * stateSizeWords P) V' e (16 * stateSizeWords P) T2 V2 W1 W2 HP HE HC (le_n _) (le_n _) Lp Bp He HT HV HV' H2 Hc2 (conj A1 A2)) as (B1 & B2 & B3); [|exact M2|].
  { intros j Hj. destruct (HV2 j Hj) as (_ & _ & _ & _ & X & Y). destruct (lt2_cases j Hj) as [-> | ->]; cbn [dget fst snd] in X, Y; auto. }
  destruct (H e He) as (_ & Le & _ & _ & (Oe & _) & _). destruct (H _ Hx) as (_ & _ & _ & _ & (Ox & _) & _). rewrite (Vj e He) in Le.
  destruct (K ltac:(apply (ver_call_sizes _ _ _ _ _ _ _ _ _ _ HM2)) HV2) as (_ & _ & _ & Lw & _).
  exists st2', t2, (v_communicatedBits (tget V' e)), (v_communicatedBits W1), (v_outputShare (tget V' e)), (v_outputShare (tget V' ((e + 1) mod 3))).
  split; [exact R2|]. split; [apply (Hpts e He)|]. split; [exact Q1|]. split; [exact Le|]. split; [exact Lw|]. split; [exact B1|].
  split; [exact Oe|]. split; [apply (Hpts e He)|]. split; [rewrite <- B2; exact Q2|]. split; [exact Ox|]. split; [apply (Hpts _ Hx)|]. rewrite <- B3. exact Q3.
Qed.

Lemma mpc_LowMC_verify_constant_time U U' P x y : locals_ok U -> locals_ok U' -> same_public x y ->
  let c := c_mpc_LowMC_verify P 0 1 2 3 (PV 4 (IC 0)) (PV 5 (IC 0)) 6 7 8 0 (IV 1) in
  observed (run U c x) = observed (run U' c y).
Proof. intros HU HU' H c. apply observed_same; auto. Qed.
