(** Special soundness of one ZKB++ round. *)

From Coq Require Import List NArith Arith Bool Lia ZifyBool ZifyNat ZifyN.
From Verif Require Import Base Params Env Spec LowMC Picnic1 Api ApiSpec SigSpec BaseFacts ParamFacts
  ApiFacts LowMCFacts LowMCInj Hint ZkbMpc Zkb ZkbRound ZkbSign ZkbChal ZkbCodec ZkbTop ZkbApi ZkbProps.
Import ListNotations.

Section Sound.
Variable E : env.
Variable P : paramset.
Variable p : N.
Hypothesis HP : get_param_set p = Some P.
Hypothesis H3 : is_picnic3 p = false.
Hypothesis HE : env_bytes_ok E.
Hypothesis HC : constants_ok E P.
Let HP1 : wfP1 P := get_param_set_wfP1 _ _ HP H3.

Lemma commit_val_string seed v :
  commit_val E P seed v = hash E P HASH_PREFIX_0 [view_string E P seed v] (digestSizeBytes P).
Proof.
  unfold commit_val, view_string, hash. do 2 f_equal. cbn [concat]. rewrite !app_nil_r. auto.
Qed.

Lemma commit_binds s1 v1 s2 v2 :
  length (v_inputShare v1) = length (v_inputShare v2) ->
  length (v_communicatedBits v1) = length (v_communicatedBits v2) ->
  commit_val E P s1 v1 = commit_val E P s2 v2 ->
  (collide E P HASH_PREFIX_0 (view_string E P s1 v1) (view_string E P s2 v2) \/
   collide E P HASH_PREFIX_4 s1 s2) \/
  (s1 = s2 /\ v_inputShare v1 = v_inputShare v2 /\
   v_communicatedBits v1 = v_communicatedBits v2 /\ v_outputShare v1 = v_outputShare v2).
Proof.
  intros Hi Hc Hcom. rewrite !commit_val_string in Hcom.
  destruct (list_eq_dec N.eq_dec (view_string E P s1 v1) (view_string E P s2 v2)) as [Heq|Hne].
  2:{ left. left. split; auto. }
  unfold view_string in Heq.
  apply app_inj_len in Heq; [|rewrite !hash_len by auto; auto]. destruct Heq as [Hs Heq].
  apply app_inj_len in Heq; [|auto]. destruct Heq as [H1 Heq].
  apply app_inj_len in Heq; [|auto]. destruct Heq as [H2 H4].
  destruct (list_eq_dec N.eq_dec s1 s2) as [->|Hne]; [right; auto|].
  left. right. split; auto.
Qed.

Lemma C27_pf k (salt pub pt : bytes) (pr : nat -> proof) (chal : nat -> bytes) (vo cm : tri bytes)
    (gs : nat -> tri bytes) (wa wb : nat -> view) (tmp : bytes) (tape : duo bytes) :
  block_wf pub -> block_wf pt -> length salt = saltSizeBytes P ->
  length tmp = Nat.max (6 * stateSizeBytes P) (stateSizeBytes P + andSizeBytes P) ->
  andSizeBytes P <= length (fst tape) -> andSizeBytes P <= length (snd tape) ->
  (forall c, c < 3 -> proof_wf P c (pr c)) ->
  (forall c, c < 3 -> 2 * k + 1 < 8 * length (chal c) /\ trit_at (chal c) k = c) ->
  (forall c, c < 3 -> verify_round E P k (pr c) (chal c) salt pub pt = Ok (vo, cm, gs c)) ->
  (forall c, c < 3 -> verifyProof E P (pr c) (allocateView P) (allocateView P) c salt k tmp pt tape
                      = Ok (wa c, wb c)) ->
  (exists j, j < 3 /\ let i := (j + 2) mod 3 in
     (collide E P HASH_PREFIX_0 (view_string E P (p_seed1 (pr j)) (wa j))
                                (view_string E P (p_seed2 (pr i)) (wb i)) \/
      collide E P HASH_PREFIX_4 (p_seed1 (pr j)) (p_seed2 (pr i)))) \/
  (forall key,
     (forall i, i < stateSizeBits P ->
        bit key i = xorb (xorb (bit (v_inputShare (wa 0)) i) (bit (v_inputShare (wa 1)) i))
                         (bit (v_inputShare (wa 2)) i)) ->
     lowmc_relation E P key pt pub).
Proof.
  intros Hpub Hpt Hsalt Ltmp Lt0 Lt1 Hwf Hchal Hvr Hvp.
  pose proof (w1_wfP P HP1) as Hw.
  destruct (arr_len P HP1 _ Hpub) as [Hpub1 Hpub2]. destruct (arr_len P HP1 _ Hpt) as [Hpt1 Hpt2].
  set (o := fun c => opening_of P c (pr c)).
  assert (Ho : forall c, c < 3 -> opening_wf P c (o c) /\ proof_is P c (pr c) (o c)).
  { intros c Hc. apply opening_of_wf; auto. }
  assert (Hv : forall c, c < 3 -> vr_views E P c (o c) salt k pt = (wa c, wb c)).
  { intros c Hc. destruct (Ho c Hc) as [O1 O2].
    specialize (Hvp c Hc). destruct tape as [ta tb].
    rewrite (verifyProof_eq E P HP1 HE HC c (pr c) (o c)) in Hvp; auto; try apply Hpt.
    congruence. }
  assert (Hr : forall c, c < 3 ->
    (forall j, j < 3 -> tget vo j = vr_out E P c (o c) salt k pub pt j) /\
    (forall j, j < 3 -> tget cm j = vr_commit E P c (o c) salt k pt j)).
  { intros c Hc. destruct (Ho c Hc) as [O1 O2]. destruct (Hchal c Hc) as [C1 C2].
    pose proof (verify_round_spec E P HP1 HE HC k (pr c) (o c) (chal c) c salt pub pt) as Hs.
    rewrite getChallenge_ok in Hs by auto. rewrite <- trit_at_chalv, C2 in Hs.
    specialize (Hs eq_refl Hc O1 O2 Hsalt Hpt2 (proj2 Hpt) Hpub1). rewrite (Hvr c Hc) in Hs.
    cbn [ok] in Hs. destruct Hs as (A & B & _). auto. }
  assert (Hs : forall c, c < 3 -> _) by
    exact (fun c Hc => vr_views_spec E P HP1 HE HC c (o c) salt k pt Hc (proj1 (Ho c Hc)) Hpt2 (proj2 Hpt)).
  assert (Hb : forall j, j < 3 ->
    (collide E P HASH_PREFIX_0 (view_string E P (p_seed1 (pr j)) (wa j))
                               (view_string E P (p_seed2 (pr (prv j))) (wb (prv j))) \/
     collide E P HASH_PREFIX_4 (p_seed1 (pr j)) (p_seed2 (pr (prv j)))) \/
    (p_seed1 (pr j) = p_seed2 (pr (prv j)) /\ v_inputShare (wa j) = v_inputShare (wb (prv j)) /\
     v_communicatedBits (wa j) = v_communicatedBits (wb (prv j)) /\
     v_outputShare (wa j) = v_outputShare (wb (prv j)))).
  { intros j Hj. pose proof (prv_lt j) as Hp.
    pose proof (Hs j Hj) as Sj. pose proof (Hs (prv j) Hp) as Sp.
    rewrite (Hv j Hj) in Sj. rewrite (Hv _ Hp) in Sp. cbn [fst snd] in Sj, Sp.
    destruct Sj as (A1 & A2 & A3 & A4 & _). destruct Sp as (B1 & B2 & B3 & B4 & _).
    apply commit_binds.
    - rewrite A1, B2.
      destruct (Ho j Hj) as [(_ & _ & _ & _ & _ & _ & I1) _].
      destruct (Ho _ Hp) as [(_ & _ & _ & _ & _ & _ & I2) _].
      rewrite (proj1 (share_in_wf E P HP1 HE (o_seed1 (o j)) (o_in (o j)) salt k j
        ltac:(intros ->; apply I1; lia) Hj)).
      rewrite (proj1 (share_in_wf E P HP1 HE (o_seed2 (o (prv j))) (o_in (o (prv j))) salt k (nxt (prv j))
        ltac:(intros Hn; apply I2; destruct (lt3 j Hj) as [-> | [-> | ->]]; discriminate) (nxt_lt _))).
      reflexivity.
    - rewrite A4, B3. symmetry. apply (Ho _ Hp).
    - destruct (Hr j Hj) as [_ R1]. destruct (Hr _ Hp) as [_ R2].
      specialize (R1 j Hj). specialize (R2 j Hj). rewrite R1 in R2.
      unfold vr_commit in R2. rewrite (Hv j Hj), (Hv _ Hp) in R2.
      revert R2. destruct (lt3 j Hj) as [-> | [-> | ->]]; exact (fun x => x). }
  assert (Hd : (exists j, j < 3 /\
     (collide E P HASH_PREFIX_0 (view_string E P (p_seed1 (pr j)) (wa j))
                                (view_string E P (p_seed2 (pr (prv j))) (wb (prv j))) \/
      collide E P HASH_PREFIX_4 (p_seed1 (pr j)) (p_seed2 (pr (prv j))))) \/
     (forall j, j < 3 ->
    (p_seed1 (pr j) = p_seed2 (pr (prv j)) /\ v_inputShare (wa j) = v_inputShare (wb (prv j)) /\
     v_communicatedBits (wa j) = v_communicatedBits (wb (prv j)) /\
     v_outputShare (wa j) = v_outputShare (wb (prv j))))).
  { destruct (Hb 0 ltac:(lia)) as [C|B0]; [left; exists 0; split; [lia|exact C]|].
    destruct (Hb 1 ltac:(lia)) as [C|B1]; [left; exists 1; split; [lia|exact C]|].
    destruct (Hb 2 ltac:(lia)) as [C|B2]; [left; exists 2; split; [lia|exact C]|].
    right. intros j Hj. destruct (lt3 j Hj) as [-> | [-> | ->]]; auto. }
  destruct Hd as [(j & Hj & C)|Heq]; [left; exists j; split; auto|]. right. clear Hb.
  intros key Hkey.
  pose proof (Hs 0 ltac:(lia)) as S0. pose proof (Hs 1 ltac:(lia)) as S1. pose proof (Hs 2 ltac:(lia)) as S2.
  rewrite Hv in S0, S1, S2 by lia. cbn [fst snd] in S0, S1, S2.
  destruct (Heq 0 ltac:(lia)) as (E0s & E0i & E0c & E0o).
  destruct (Heq 1 ltac:(lia)) as (E1s & E1i & E1c & E1o).
  destruct (Heq 2 ltac:(lia)) as (E2s & E2i & E2c & E2o).
  change (prv 0) with 2 in *. change (prv 1) with 0 in *. change (prv 2) with 1 in *.
  destruct S0 as (I0 & J0 & K0 & _ & _ & _ & O0 & Q0 & G0).
  destruct S1 as (I1 & J1 & K1 & _ & _ & _ & O1 & Q1 & G1).
  destruct S2 as (I2 & J2 & K2 & _ & _ & _ & O2 & Q2 & G2).
  change (nxt 0) with 1 in *. change (nxt 1) with 2 in *. change (nxt 2) with 0 in *.
  unfold o, opening_of in *. cbn [o_seed1 o_seed2 o_in o_comm o_c3 o_g3] in *.
  rewrite <- E1s in *. rewrite <- E2s in *. rewrite <- E0s in *.
  rewrite <- I0, <- J0, <- K0, <- E1i, <- E1c in *.
  rewrite <- I1, <- J1, <- K1, <- E2i, <- E2c in *.
  rewrite <- I2, <- J2, <- K2, <- E0i, <- E0c in *.
  cbn [Nat.eqb] in *.
  pose proof (gates3_correct (lowmc_of E P) (bit pt) _ _ _ _ _ _ _ _ _ (wf_m P Hw) G0 G1 G2) as Hg.
  cbv zeta in Hg.
  (* the third output is computed from the public key *)
  assert (Hx : forall i, xorb (xorb (bit (v_outputShare (wa 0)) i) (bit (v_outputShare (wa 1)) i))
                              (bit (v_outputShare (wa 2)) i) = bit (firstn (stateSizeBytes P) pub) i).
  { destruct (Hr 0 ltac:(lia)) as [R0 _]. destruct (Hr 2 ltac:(lia)) as [R2 _].
    specialize (R0 2 ltac:(lia)). specialize (R2 2 ltac:(lia)). rewrite R0 in R2.
    unfold vr_out in R2. rewrite (Hv 0), (Hv 2) in R2 by lia. cbn [by_party Nat.eqb nxt] in R2.
    unfold by_party in R2. change (nxt 0) with 1 in R2. cbn in R2. rewrite <- E1o in R2. intros i. rewrite <- R2.
    assert (in_wf P (v_outputShare (wa 0))) by (split; apply O0).
    assert (in_wf P (v_outputShare (wa 1))) by (split; apply O1).
    assert (in_wf P (firstn (stateSizeBytes P) pub)) by (apply firstn_wf; auto; apply Hpub).
    rewrite (bit_lxor3 P) by auto.
    destruct (bit (v_outputShare (wa 0)) i), (bit (v_outputShare (wa 1)) i),
      (bit (firstn (stateSizeBytes P) pub) i); reflexivity. }
  destruct O0 as (_ & _ & O0). destruct O1 as (_ & _ & O1). destruct O2 as (_ & _ & O2).
  split.
  - intros i Hi.
    assert (Hi8 : i < 8 * stateSizeBytes P).
    { rewrite (wf_sB P Hw). pose proof (numBytes_spec (stateSizeBits P)). lia. }
    rewrite <- (bit_firstn pub (stateSizeBytes P) i) by auto. rewrite <- Hx, O0, O1, O2.
    replace (i <? stateSizeBits P) with true by (symmetry; apply Nat.ltb_lt; auto).
    etransitivity; [exact (Hg i Hi)|]. symmetry. apply (lowmc_enc_ext (lowmc_of E P)); auto; [apply (wf_m P Hw)|].
    intros q Hq. reflexivity.
  - intros i Hi. rewrite <- (bit_firstn pub (stateSizeBytes P) i) by apply Hi.
    rewrite <- Hx, O0, O1, O2.
    replace (i <? stateSizeBits P) with false by (symmetry; apply Nat.ltb_ge; apply Hi). reflexivity.
Qed.

End Sound.
