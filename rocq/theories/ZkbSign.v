(** One round: results of [verify_round], [sign_round] and [prove]; the opening produced by the
    signer verifies. *)

From Coq Require Import List NArith Arith Bool Btauto Lia ZifyBool ZifyNat ZifyN.
From Verif Require Import Base Params Env Spec LowMC Picnic1 Api ApiSpec BaseFacts ParamFacts
  LowMCFacts LowMCInj Hint ZkbMpc Zkb SigSpec ZkbRound.
Import ListNotations.

Lemma tri_wr_self {A} (t : tri A) j x : j < 3 ->
  exists t', tri_wr t j x = Ok t' /\ forall i, i < 3 -> tget t' i = if i =? j then x else tget t i.
Proof.
  intros Hj. destruct t as [[a b] c].
  destruct (lt3 j Hj) as [-> | [-> | ->]]; (eexists; split; [reflexivity|]);
    intros i Hi; destruct (lt3 i Hi) as [-> | [-> | ->]]; reflexivity.
Qed.

Section Z.
Variable E : env.
Variable P : paramset.

Let n := stateSizeBits P.
Let sB := stateSizeBytes P.
Let aB := andSizeBytes P.
Let W := stateSizeWords P.
Let m := numSboxes P.
Let R := numRounds P.
Let L := lowmc_of E P.

Hypothesis HP1 : wfP1 P.
Let HP : wfP P := w1_wfP P HP1.
Hypothesis HE : env_bytes_ok E.
Hypothesis HC : constants_ok E P.

Lemma G_len_le j : is_UR (transf P) = true -> G_len P j <= UnruhGWithInputBytes P.
Proof. intros H. rewrite (w1_Gw P HP1 H). unfold G_len. destruct (j =? 2); lia. Qed.

Lemma uninit_len s i l : length (uninit E s i l) = l.
Proof. apply HE. Qed.

Lemma tri_wr3 {A} (t : tri A) ch a b c : ch < 3 ->
  ok (t1 <- tri_wr t ch a ;; t2 <- tri_wr t1 (nxt ch) b ;; tri_wr t2 (prv ch) c)
     (fun t' => forall j, j < 3 -> tget t' j = by_party ch a b c j).
Proof.
  intros Hch. destruct t as [[x y] z].
  destruct (lt3 ch Hch) as [-> | [-> | ->]]; cbn; intros j Hj;
    destruct (lt3 j Hj) as [-> | [-> | ->]]; reflexivity.
Qed.

Lemma xor_three_lxor a b c :
  length a = sB -> length b = sB -> sB <= length c ->
  xor_three (zeros sB) a b c sB = Ok (lxor_list (lxor_list a b) (firstn sB c)).
Proof.
  intros Ha Hb Hc. unfold xor_three. rewrite !slice_all by auto. cbn [bind].
  rewrite slice0_ok by auto. cbn [bind]. apply blit0_all.
  rewrite length_zeros, !length_lxor_list; rewrite ?length_lxor_list, ?firstn_length; lia.
Qed.

Lemma verify_round_spec k pr o chal ch salt pub pt :
  getChallenge chal k = Ok ch ->
  ch < 3 -> opening_wf P ch o -> proof_is P ch pr o -> length salt = saltSizeBytes P ->
  4 * W <= length pt -> bytes_ok pt -> sB <= length pub ->
  ok (verify_round E P k pr chal salt pub pt) (fun '(vo, cm, gs) =>
    (forall j, j < 3 -> tget vo j = vr_out E P ch o salt k pub pt j) /\
    (forall j, j < 3 -> tget cm j = vr_commit E P ch o salt k pt j) /\
    (is_UR (transf P) = true -> forall j, j < 3 ->
       G_len P j <= length (tget gs j) /\
       firstn (G_len P j) (tget gs j) = vr_g E P ch o salt k pt j)).
Proof.
  intros Hgc Hch Hwf Hpr Hsalt Hptl Hptb Hpub. unfold verify_round.
  rewrite Hgc. cbn [bind]. fold sB aB.
  rewrite (verifyProof_eq E P HP1 HE HC ch pr o); auto.
  2:{ rewrite uninit_len. auto. }
  2:{ cbn [dget fst]. rewrite uninit_len. unfold getTapeSizeBytes. fold aB. lia. }
  2:{ cbn [dget snd]. rewrite uninit_len. unfold getTapeSizeBytes. fold aB. lia. }
  cbn [bind].
  pose proof (vr_views_spec E P HP1 HE HC ch o salt k pt Hch Hwf Hptl Hptb) as Hv.
  unfold vr_out, vr_commit, vr_g. destruct (vr_views E P ch o salt k pt) as [w1 w2].
  cbn [fst snd] in Hv. destruct Hv as (I1 & I2 & C2 & Cl1 & _ & _ & (O1 & _) & (O2 & _) & _).
  pose proof Hwf as (Hs1 & Hs2 & Hcl & Hcb & Hc3 & Hg3 & Hin).
  destruct Hpr as (Ep1 & Ep2 & Ec & Ec3 & Eg & Hil & Ei).
  assert (Hw1 : length (v_inputShare w1) = sB).
  { rewrite I1. apply share_in_wf; auto. intros ->. apply Hin. lia. }
  assert (Hw2 : length (v_inputShare w2) = sB).
  { rewrite I2. apply share_in_wf; auto; [|apply nxt_lt]. intros Hn. apply Hin.
    intros ->. discriminate. }
  assert (Hcm2 : length (v_communicatedBits w2) = aB) by (rewrite C2; auto).
  rewrite Ep1, Ep2, Ec3, !(Commit_ok E P) by auto. cbn [bind].
  rewrite slice_all by auto. cbn [bind]. fold (nxt ch) (prv ch).
  pose proof (tri_wr3 ([], [], []) ch (commit_val E P (o_seed1 o) w1)
                (commit_val E P (o_seed2 o) w2) (o_c3 o) Hch) as Hcm.
  destruct (tri_wr ([], [], []) ch (commit_val E P (o_seed1 o) w1)) as [t1| | |];
    cbn [bind ok] in *; try contradiction.
  destruct (tri_wr t1 (nxt ch) _) as [t2| | |]; cbn [bind ok] in *; try contradiction.
  destruct (tri_wr t2 (prv ch) _) as [cm| | |]; cbn [bind ok] in *; try contradiction.
  eapply ok_step with (Q := fun gs : tri bytes => is_UR (transf P) = true -> forall j, j < 3 ->
       G_len P j <= length (tget gs j) /\
       firstn (G_len P j) (tget gs j) =
       by_party ch (G_val E P ch (o_seed1 o) w1) (G_val E P (nxt ch) (o_seed2 o) w2) (o_g3 o) j).
  { destruct (is_UR (transf P)) eqn:Hur; [|simpl; discriminate].
    set (g0 := (uninit E site_verify_G k (UnruhGWithInputBytes P),
                uninit E (site_verify_G + 1) k (UnruhGWithInputBytes P),
                uninit E (site_verify_G + 2) k (UnruhGWithInputBytes P))).
    cbv zeta.
    assert (Hg0 : forall j, length (tget g0 j) = UnruhGWithInputBytes P).
    { intros j. unfold g0. destruct j as [|[|j]]; cbn [tget]; apply uninit_len. }
    destruct (G_ok E P HP1 HE ch (o_seed1 o) w1 (tget g0 ch)) as (b1 & -> & Hb1l & Hb1); auto.
    { rewrite Hg0. apply G_len_le; auto. }
    cbn [bind].
    destruct (G_ok E P HP1 HE (nxt ch) (o_seed2 o) w2 (tget g0 (nxt ch))) as (b2 & -> & Hb2l & Hb2); auto.
    { rewrite Hg0. apply G_len_le; auto. }
    cbn [bind]. rewrite G_len_prv by auto.
    destruct (Eg eq_refl) as [Egl Egf]. pose proof (G_len_le (prv ch) Hur) as Hgle.
    rewrite copy_ok by (rewrite ?Hg0; lia). cbn [bind skipn]. rewrite Egf.
    eapply ok_mono; [apply tri_wr3; auto|]. cbv beta. intros gs Hgs _ j Hj.
    rewrite Hgs by auto. specialize (Hg3 eq_refl). rewrite Hg0 in Hb1l, Hb2l.
    assert (Hj' : j = ch \/ j = nxt ch \/ j = prv ch).
    { clear - Hj Hch. destruct (lt3 ch Hch) as [-> | [-> | ->]];
      destruct (lt3 j Hj) as [-> | [-> | ->]]; auto. }
    unfold by_party. destruct Hj' as [-> | [-> | ->]].
    - rewrite Nat.eqb_refl. split; auto. rewrite Hb1l. apply G_len_le; auto.
    - replace (nxt ch =? ch) with false
        by (destruct (lt3 ch Hch) as [-> | [-> | ->]]; reflexivity).
      rewrite Nat.eqb_refl. split; auto. rewrite Hb2l. apply G_len_le; auto.
    - replace (prv ch =? ch) with false
        by (destruct (lt3 ch Hch) as [-> | [-> | ->]]; reflexivity).
      replace (prv ch =? nxt ch) with false
        by (destruct (lt3 ch Hch) as [-> | [-> | ->]]; reflexivity).
      split; [rewrite length_blit0; rewrite ?Hg0; lia|]. apply firstn_blit0. auto. }
  intros gs Hgs.
  pose proof (tri_wr3 ([], [], []) ch (v_outputShare w1) (v_outputShare w2)
                (lxor_list (lxor_list (v_outputShare w1) (v_outputShare w2)) (firstn sB pub)) Hch)
    as Hvo.
  destruct (tri_wr ([], [], []) ch (v_outputShare w1)) as [v1| | |];
    cbn [bind ok] in *; try contradiction.
  destruct (tri_wr v1 (nxt ch) _) as [v2| | |]; cbn [bind ok] in *; try contradiction.
  rewrite xor_three_lxor by auto. cbn [bind].
  destruct (tri_wr v2 (prv ch) _) as [vo| | |]; cbn [bind ok] in *; try contradiction.
  auto.
Qed.

(** ** The signer's round *)
Definition sr_in (s : nat -> bytes) (salt : bytes) (k : nat) (sk : bytes) (j : nat) : bytes :=
  if j <? 2 then party_in E P (s j) salt k j
  else lxor_list (lxor_list (firstn sB sk) (party_in E P (s 0) salt k 0))
                 (party_in E P (s 1) salt k 1).

Definition sr_views (s : nat -> bytes) (salt : bytes) (k : nat) (sk pt : bytes) : tri view :=
  views_of E P (sr_in s salt k sk) (fun j => party_tape E P (s j) salt k j) pt.

Definition sr_out (s : nat -> bytes) (salt : bytes) (k : nat) (sk pt : bytes) (j : nat) : bytes :=
  v_outputShare (tget (sr_views s salt k sk pt) j).
Definition sr_commit (s : nat -> bytes) (salt : bytes) (k : nat) (sk pt : bytes) (j : nat) : bytes :=
  commit_val E P (s j) (tget (sr_views s salt k sk pt) j).
Definition sr_g (s : nat -> bytes) (salt : bytes) (k : nat) (sk pt : bytes) (j : nat) : bytes :=
  G_val E P j (s j) (tget (sr_views s salt k sk pt) j).

Definition sr_opening (s : nat -> bytes) (salt : bytes) (k : nat) (sk pt : bytes) (ch : nat) : opening :=
  mkOpening (s ch) (s (nxt ch)) (sr_in s salt k sk 2)
    (v_communicatedBits (tget (sr_views s salt k sk pt) (nxt ch)))
    (sr_commit s salt k sk pt (prv ch)) (sr_g s salt k sk pt (prv ch)).

Lemma lxor3_wf a b c : in_wf P a -> in_wf P b -> in_wf P c -> in_wf P (lxor_list (lxor_list a b) c).
Proof.
  intros [Ha Ha'] [Hb Hb'] [Hc Hc']. split.
  - rewrite !length_lxor_list; rewrite ?length_lxor_list; congruence.
  - repeat apply bytes_ok_lxor; auto.
Qed.

Lemma bit_lxor3 a b c i : in_wf P a -> in_wf P b -> in_wf P c ->
  bit (lxor_list (lxor_list a b) c) i = xorb (xorb (bit a i) (bit b i)) (bit c i).
Proof.
  intros [Ha Ha'] [Hb Hb'] [Hc Hc'].
  rewrite !bit_lxor_list; rewrite ?length_lxor_list; congruence.
Qed.

Lemma firstn_wf sk : sB <= length sk -> bytes_ok sk -> in_wf P (firstn sB sk).
Proof. intros Hl Hb. split; [rewrite firstn_length; fold sB; lia|apply Forall_firstn; auto]. Qed.

Lemma sr_in_wf s salt k sk j :
  sB <= length sk -> bytes_ok sk -> j < 3 -> in_wf P (sr_in s salt k sk j).
Proof.
  intros Hl Hb Hj. unfold sr_in.
  assert (Hp : forall i, i < 2 -> in_wf P (party_in E P (s i) salt k i)).
  { intros i Hi. destruct (party_in_wf E P HP1 HE (s i) salt k i Hi) as (A & B & _). split; auto. }
  destruct (Nat.ltb_spec j 2); auto.
  apply lxor3_wf; auto. apply firstn_wf; auto.
Qed.

Lemma sr_views_spec s salt k sk pt :
  sB <= length sk -> bytes_ok sk -> 4 * W <= length pt -> bytes_ok pt ->
  mpc_views E P (sr_in s salt k sk) (fun j => party_tape E P (s j) salt k j) pt
            (sr_views s salt k sk pt).
Proof.
  intros. apply views_of_spec; auto.
  - intros j Hj. apply sr_in_wf; auto.
  - intros j Hj. apply length_party_tape; auto.
Qed.

Lemma sr_out_share s salt k sk pt j :
  sB <= length sk -> bytes_ok sk -> 4 * W <= length pt -> bytes_ok pt -> j < 3 ->
  in_wf P (sr_out s salt k sk pt j) /\ (forall i, n <= i -> bit (sr_out s salt k sk pt j) i = false).
Proof.
  intros H1 H2 H3 H4 Hj.
  destruct (sr_views_spec s salt k sk pt H1 H2 H3 H4 j Hj) as (_ & _ & _ & _ & (A & B & C) & _).
  split; [split; auto|]. intros i Hi. unfold sr_out. rewrite C. fold n.
  replace (i <? n) with false by lia. auto.
Qed.

(** The output shares add up to the encryption. *)
Lemma sr_out_sum s salt k sk pt i :
  sB <= length sk -> bytes_ok sk -> 4 * W <= length pt -> bytes_ok pt -> i < n ->
  xorb (xorb (bit (sr_out s salt k sk pt 0) i) (bit (sr_out s salt k sk pt 1) i))
       (bit (sr_out s salt k sk pt 2) i) = lowmc_enc L (bit sk) (bit pt) i.
Proof.
  intros H1 H2 H3 H4 Hi.
  pose proof (sr_views_spec s salt k sk pt H1 H2 H3 H4) as Hv.
  destruct (Hv 0 ltac:(lia)) as (_ & _ & _ & _ & (_ & _ & O0) & G0).
  destruct (Hv 1 ltac:(lia)) as (_ & _ & _ & _ & (_ & _ & O1) & G1).
  destruct (Hv 2 ltac:(lia)) as (_ & _ & _ & _ & (_ & _ & O2) & G2).
  unfold sr_out. rewrite O0, O1, O2. fold n. replace (i <? n) with true by lia.
  pose proof (gates3_correct L _ _ _ _ _ _ _ _ _ _ (wf_m P HP) G0 G1 G2 i Hi) as Hs.
  unfold vxor at 1 2 in Hs. etransitivity; [exact Hs|].
  apply lowmc_enc_ext; auto; [apply (wf_m P HP)| |intros j Hj; reflexivity].
  intros j Hj. unfold vxor. change (nxt 0) with 1. change (nxt 1) with 2.
  pose proof (sr_in_wf s salt k sk 0 H1 H2 ltac:(lia)) as I0.
  pose proof (sr_in_wf s salt k sk 1 H1 H2 ltac:(lia)) as I1.
  change (sr_in s salt k sk 2) with
    (lxor_list (lxor_list (firstn sB sk) (sr_in s salt k sk 0)) (sr_in s salt k sk 1)).
  rewrite bit_lxor3 by (auto; apply firstn_wf; auto).
  pose proof (sB_bits P HP1) as HsB. fold sB in HsB.
  rewrite (bit_firstn sk sB) by (change (lm_n L) with (stateSizeBits P) in Hj; lia). btauto.
Qed.

Lemma sr_rel s salt k sk pub pt :
  sB <= length sk -> bytes_ok sk -> 4 * W <= length pt -> bytes_ok pt ->
  sB <= length pub -> bytes_ok pub ->
  (lxor_list (lxor_list (sr_out s salt k sk pt 0) (sr_out s salt k sk pt 1))
             (sr_out s salt k sk pt 2) = firstn sB pub <->
   lowmc_relation E P sk pt pub).
Proof.
  intros H1 H2 H3 H4 H5 H6.
  pose proof (fun j Hj => sr_out_share s salt k sk pt j H1 H2 H3 H4 Hj) as Ho.
  destruct (Ho 0 ltac:(lia)) as [W0 Z0]. destruct (Ho 1 ltac:(lia)) as [W1 Z1].
  destruct (Ho 2 ltac:(lia)) as [W2 Z2].
  pose proof (sB_bits P HP1) as HsB. fold sB in HsB.
  assert (Hb : forall i, bit (lxor_list (lxor_list (sr_out s salt k sk pt 0) (sr_out s salt k sk pt 1))
             (sr_out s salt k sk pt 2)) i = if i <? n then lowmc_enc L (bit sk) (bit pt) i else false).
  { intros i. rewrite bit_lxor3 by auto. destruct (Nat.ltb_spec i n).
    - apply sr_out_sum; auto.
    - rewrite Z0, Z1, Z2 by auto. reflexivity. }
  split.
  - intros Heq. split.
    + intros i Hi. rewrite <- (bit_firstn pub sB) by (fold n in Hi; lia). rewrite <- Heq, Hb.
      fold n in Hi. replace (i <? n) with true by lia. reflexivity.
    + intros i Hi. rewrite <- (bit_firstn pub sB) by (fold sB in Hi; lia). rewrite <- Heq, Hb.
      fold n in Hi. replace (i <? n) with false by lia. reflexivity.
  - intros [Hr1 Hr2].
    destruct (lxor3_wf _ _ _ W0 W1 W2) as [Hl Hbb]. destruct (firstn_wf pub H5 H6) as [Hl' Hbb'].
    apply bits_ext; auto; [congruence|]. intros i Hi. rewrite Hb, bit_firstn by (rewrite Hl in Hi; auto).
    rewrite Hl in Hi. fold sB in Hi. destruct (Nat.ltb_spec i n).
    + symmetry. apply Hr1. auto.
    + symmetry. apply Hr2. fold n sB. lia.
Qed.

(** What the signer stores for a round. *)
Definition round_is (s : nat -> bytes) (salt : bytes) (k : nat) (sk pt : bytes) (rd : round_data) : Prop :=
  (forall j, j < 3 -> tget (r_seeds rd) j = s j) /\
  r_views rd = sr_views s salt k sk pt /\
  (forall j, j < 3 -> tget (r_commits rd) j = sr_commit s salt k sk pt j) /\
  (is_UR (transf P) = true -> forall j, j < 3 ->
     G_len P j <= length (tget (r_gs rd) j) /\
     firstn (G_len P j) (tget (r_gs rd) j) = sr_g s salt k sk pt j).

Lemma sign_round_spec k allSeeds s salt sk pub pt :
  (forall j, j < 3 -> seed_at P allSeeds k j = Ok (s j) /\ length (s j) = seedSizeBytes P) ->
  length salt = saltSizeBytes P ->
  sB <= length sk -> bytes_ok sk -> 4 * W <= length pt -> bytes_ok pt ->
  sB <= length pub -> bytes_ok pub ->
  ok (sign_round E P k allSeeds salt sk pub pt) (fun r =>
    match r with
    | Some rd => lowmc_relation E P sk pt pub /\ round_is s salt k sk pt rd
    | None => ~ lowmc_relation E P sk pt pub
    end).
Proof.
  intros Hs Hsalt Hskl Hskb Hptl Hptb Hpubl Hpubb. unfold sign_round. fold sB aB n.
  destruct (Hs 0 ltac:(lia)) as [Hs0 Hsl0]. destruct (Hs 1 ltac:(lia)) as [Hs1 Hsl1].
  destruct (Hs 2 ltac:(lia)) as [Hs2 Hsl2].
  rewrite Hs0. cbn [bind].
  pose proof (w1_tmp P HP1) as Htmp. fold sB aB W in Htmp.
  set (tmp := uninit E site_sign_tmp k (Nat.max (9 * sB) (sB + aB))).
  assert (Htl : length tmp = Nat.max (9 * sB) (sB + aB)) by apply uninit_len.
  pose proof (createRandomTape_spec E P HP1 HE (s 0) salt k 0 tmp Hsl0 Hsalt) as HT1.
  change (party_len P 0) with (sB + aB) in HT1. specialize (HT1 ltac:(lia)).
  destruct (createRandomTape E P (s 0) salt k 0 tmp (sB + aB)) as [[st1 tmp1]| | |];
    cbn [ok] in HT1; try contradiction. destruct HT1 as (-> & Hl1 & _ & Hf1). cbn [bind negb].
  rewrite copy_all by (rewrite ?length_zeros; lia). cbn [bind].
  rewrite (firstn_share E P HP1 (s 0) salt k 0 _ tmp1) by (auto; fold sB; lia).
  cbn [bind].
  rewrite copy_ok by (rewrite ?uninit_len; unfold getTapeSizeBytes; fold aB; lia). cbn [bind].
  rewrite Hs1. cbn [bind].
  pose proof (createRandomTape_spec E P HP1 HE (s 1) salt k 1 tmp1 Hsl1 Hsalt) as HT2.
  change (party_len P 1) with (sB + aB) in HT2. specialize (HT2 ltac:(lia)).
  destruct (createRandomTape E P (s 1) salt k 1 tmp1 (sB + aB)) as [[st2 tmp2]| | |];
    cbn [ok] in HT2; try contradiction. destruct HT2 as (-> & Hl2 & _ & Hf2). cbn [bind negb].
  rewrite copy_all by (rewrite ?length_zeros; lia). cbn [bind].
  rewrite (firstn_share E P HP1 (s 1) salt k 1 _ tmp2) by (auto; fold sB; lia).
  cbn [bind].
  rewrite copy_ok by (rewrite ?uninit_len; unfold getTapeSizeBytes; fold aB; lia). cbn [bind].
  rewrite Hs2. cbn [bind].
  set (u2 := uninit E (site_sign_tape + 2) k (getTapeSizeBytes P)).
  assert (Hu2 : length u2 = 2 * aB) by apply uninit_len.
  pose proof (createRandomTape_spec E P HP1 HE (s 2) salt k 2 u2 Hsl2 Hsalt) as HT3.
  change (party_len P 2) with aB in HT3. specialize (HT3 ltac:(lia)).
  destruct (createRandomTape E P (s 2) salt k 2 u2 aB) as [[st3 tp3]| | |];
    cbn [ok] in HT3; try contradiction. destruct HT3 as (-> & Hl3 & _ & Hf3). cbn [bind negb].
  assert (Hx : xor_three (zeros sB) sk (party_in E P (s 0) salt k 0) (party_in E P (s 1) salt k 1) sB
               = Ok (sr_in s salt k sk 2)).
  { destruct (party_in_wf E P HP1 HE (s 0) salt k 0 ltac:(lia)) as (A0 & _).
    destruct (party_in_wf E P HP1 HE (s 1) salt k 1 ltac:(lia)) as (A1 & _).
    unfold xor_three. rewrite slice0_ok by auto. cbn [bind]. rewrite !slice_all by auto. cbn [bind].
    apply blit0_all. rewrite length_zeros. apply sr_in_wf; auto. }
  rewrite Hx. cbn [bind].
  pose proof (skipn_tape E P (s 0) salt k 0 tmp1 Nat.lt_0_2 Hf1) as Hk1.
  pose proof (skipn_tape E P (s 1) salt k 1 tmp2 Nat.lt_1_2 Hf2) as Hk2.
  fold sB aB in Hk1, Hk2. rewrite Hk1, Hk2.
  pose proof (mpc_LowMC_eq E P HP1 HE HC (sr_in s salt k sk)
    (fun j => party_tape E P (s j) salt k j) pt
    (blit_list (uninit E site_sign_tape k (getTapeSizeBytes P)) 0 (party_tape E P (s 0) salt k 0),
     blit_list (uninit E (site_sign_tape + 1) k (getTapeSizeBytes P)) 0 (party_tape E P (s 1) salt k 1),
     tp3) (length tmp2)) as Hm.
  cbv zeta in Hm. fold sB aB W in Hm.
  change (party_in E P (s 0) salt k 0) with (sr_in s salt k sk 0).
  change (party_in E P (s 1) salt k 1) with (sr_in s salt k sk 1).
  match goal with |- ok (bind ?x _) _ =>
    assert (Hmm : x = Ok (sr_views s salt k sk pt)) end.
  { apply Hm; clear Hm; auto.
    - lia.
    - intros j Hj. apply sr_in_wf; auto.
    - intros j Hj. apply length_party_tape; auto.
    - intros j Hj. destruct (lt3 j Hj) as [-> | [-> | ->]]; cbn [tget].
      + apply tape_is_copy; auto; [apply length_party_tape; auto|].
        rewrite uninit_len. unfold getTapeSizeBytes. lia.
      + apply tape_is_copy; auto; [apply length_party_tape; auto|].
        rewrite uninit_len. unfold getTapeSizeBytes. lia.
      + apply tape_is_firstn; auto. apply length_party_tape; auto. }
  rewrite Hmm. clear Hm Hmm. cbn [bind].
  fold (sr_out s salt k sk pt 0) (sr_out s salt k sk pt 1) (sr_out s salt k sk pt 2).
  pose proof (fun j Hj => sr_out_share s salt k sk pt j Hskl Hskb Hptl Hptb Hj) as Ho.
  destruct (Ho 0 ltac:(lia)) as [[W0 W0'] _]. destruct (Ho 1 ltac:(lia)) as [[W1 W1'] _].
  destruct (Ho 2 ltac:(lia)) as [[W2 W2'] _].
  destruct (lxor3_wf _ _ _ (conj W0 W0') (conj W1 W1') (conj W2 W2')) as [Hxl _].
  unfold xor_three. rewrite !slice_all by auto. cbn [bind].
  assert (HsB64 : sB <= LOWMC_MAX_STATE_BYTES).
  { pose proof (sB_bits P HP1). pose proof (wf_W2 P HP). pose proof (wf_W3 P HP).
    unfold LOWMC_MAX_STATE_BYTES, sB. lia. }
  rewrite blit_ok by (rewrite length_zeros, Hxl; exact HsB64). cbn [bind].
  rewrite memcmp_ok by (rewrite ?length_blit0, ?length_zeros; rewrite ?length_zeros, ?Hxl; auto).
  cbn [bind]. rewrite firstn_blit0 by auto.
  pose proof (sr_rel s salt k sk pub pt Hskl Hskb Hptl Hptb Hpubl Hpubb) as Hrel.
  destruct (eqb_bytes _ _) eqn:Heq.
  2:{ cbn [negb ok]. rewrite <- Hrel. rewrite <- eqb_bytes_eq. congruence. }
  apply eqb_bytes_eq in Heq. apply Hrel in Heq. clear Hrel. cbn [negb].
  pose proof (sr_views_spec s salt k sk pt Hskl Hskb Hptl Hptb) as Hv.
  assert (Hvl : forall j, j < 3 -> length (v_inputShare (tget (sr_views s salt k sk pt) j)) = sB /\
    length (v_communicatedBits (tget (sr_views s salt k sk pt) j)) = aB /\
    length (v_outputShare (tget (sr_views s salt k sk pt) j)) = sB).
  { intros j Hj. destruct (Hv j Hj) as (I & C & _ & _ & (O & _) & _). rewrite I.
    destruct (sr_in_wf s salt k sk j Hskl Hskb Hj) as [A _]. auto. }
  destruct (Hvl 0 ltac:(lia)) as (I0 & C0 & O0). destruct (Hvl 1 ltac:(lia)) as (I1 & C1 & O1).
  destruct (Hvl 2 ltac:(lia)) as (I2 & C2 & O2).
  rewrite !(Commit_ok E P) by auto. cbn [bind].
  eapply ok_step with (Q := fun gs : tri bytes => is_UR (transf P) = true -> forall j, j < 3 ->
     G_len P j <= length (tget gs j) /\
     firstn (G_len P j) (tget gs j) = sr_g s salt k sk pt j).
  { destruct (is_UR (transf P)) eqn:Hur; [|simpl; discriminate].
    destruct (G_ok E P HP1 HE 0 (s 0) (tget (sr_views s salt k sk pt) 0)
                (uninit E site_G k (UnruhGWithInputBytes P))) as (b0 & -> & Hb0l & Hb0);
      auto; [rewrite uninit_len; apply G_len_le; auto|]. cbn [bind].
    destruct (G_ok E P HP1 HE 1 (s 1) (tget (sr_views s salt k sk pt) 1)
                (uninit E (site_G + 1) k (UnruhGWithInputBytes P))) as (b1 & -> & Hb1l & Hb1);
      auto; [rewrite uninit_len; apply G_len_le; auto|]. cbn [bind].
    destruct (G_ok E P HP1 HE 2 (s 2) (tget (sr_views s salt k sk pt) 2)
                (uninit E (site_G + 2) k (UnruhGWithInputBytes P))) as (b2 & -> & Hb2l & Hb2);
      auto; [rewrite uninit_len; apply G_len_le; auto|]. cbn [bind ok].
    rewrite uninit_len in Hb0l, Hb1l, Hb2l.
    intros _ j Hj. destruct (lt3 j Hj) as [-> | [-> | ->]]; cbn [tget];
      (split; [rewrite ?Hb0l, ?Hb1l, ?Hb2l; apply G_len_le; auto|auto]). }
  intros gs Hgs. cbn [ok]. split; auto. split; [|split; [|split]]; auto; cbn [r_seeds r_commits];
    intros j Hj; destruct (lt3 j Hj) as [-> | [-> | ->]]; reflexivity.
Qed.

(** ** The opening *)
Lemma sr_opening_wf s salt k sk pt ch :
  (forall j, j < 3 -> length (s j) = seedSizeBytes P) ->
  sB <= length sk -> bytes_ok sk -> 4 * W <= length pt -> bytes_ok pt -> ch < 3 ->
  opening_wf P ch (sr_opening s salt k sk pt ch).
Proof.
  intros Hs H1 H2 H3 H4 Hch. pose proof (nxt_lt ch) as Hn. pose proof (prv_lt ch) as Hp.
  pose proof (sr_views_spec s salt k sk pt H1 H2 H3 H4 (nxt ch) Hn) as (_ & Cl & Cb & _).
  unfold opening_wf, sr_opening. cbn [o_seed1 o_seed2 o_in o_comm o_c3 o_g3].
  split; [auto|]. split; [auto|]. split; [auto|]. split; [auto|].
  split; [apply hash_len; auto|]. split; [intros; apply hash_len; auto|].
  intros _. apply sr_in_wf; auto.
Qed.

Lemma prove_spec s salt k sk pt ch rd pr :
  (forall j, j < 3 -> length (s j) = seedSizeBytes P) ->
  sB <= length sk -> bytes_ok sk -> 4 * W <= length pt -> bytes_ok pt -> ch < 3 ->
  round_is s salt k sk pt rd ->
  length (p_seed1 pr) = seedSizeBytes P -> length (p_seed2 pr) = seedSizeBytes P ->
  length (p_inputShare pr) = sB -> length (p_communicatedBits pr) = aB ->
  length (p_view3Commitment pr) = digestSizeBytes P ->
  length (p_view3UnruhG pr) = UnruhGWithInputBytes P ->
  ok (prove P pr ch (r_seeds rd) (r_views rd) (r_commits rd) (r_gs rd))
     (fun pr' => proof_is P ch pr' (sr_opening s salt k sk pt ch)).
Proof.
  intros Hs H1 H2 H3 H4 Hch (Rs & Rv & Rc & Rg) L1 L2 L3 L4 L5 L6.
  pose proof (sr_views_spec s salt k sk pt H1 H2 H3 H4) as Hv.
  pose proof (nxt_lt ch) as Hn. pose proof (prv_lt ch) as Hp.
  destruct (Hv 2 ltac:(lia)) as (I2 & _). destruct (Hv (nxt ch) Hn) as (_ & Cl & _).
  destruct (sr_in_wf s salt k sk 2 H1 H2 ltac:(lia)) as [Hil Hib]. fold sB in Hil.
  unfold prove. fold (nxt ch) (prv ch) sB aB.
  replace (match ch with 0 => Ok (0, 1) | 1 => Ok (1, 2) | 2 => Ok (2, 0) | _ => Abort end)
    with (Ok (ch, nxt ch)) by (destruct (lt3 ch Hch) as [-> | [-> | ->]]; reflexivity).
  cbn [bind]. rewrite !Rs by auto. rewrite Rv.
  rewrite (slice_all (s ch)) by (symmetry; auto). cbn [bind].
  rewrite blit0_all by (rewrite Hs; auto). cbn [bind].
  rewrite (slice_all (s (nxt ch))) by (symmetry; auto). cbn [bind].
  rewrite blit0_all by (rewrite Hs; auto). cbn [bind].
  eapply ok_step with (Q := fun i => length i = sB /\ (ch <> 0 -> i = sr_in s salt k sk 2)).
  { rewrite I2. destruct ((ch =? 1) || (ch =? 2)) eqn:Hc.
    - rewrite slice_all by auto. cbn [bind]. rewrite blit0_all by congruence. cbn [ok]. auto.
    - cbn [ok]. split; auto. lia. }
  intros inp [Hinl Hine].
  rewrite (slice_all (v_communicatedBits _)) by auto. cbn [bind].
  rewrite blit0_all by (rewrite L4; exact Cl). cbn [bind].
  rewrite Rc by auto.
  assert (Hcl : length (sr_commit s salt k sk pt (prv ch)) = digestSizeBytes P)
    by (apply hash_len; auto).
  rewrite slice_all by auto. cbn [bind]. rewrite blit0_all by (rewrite L5; exact Hcl). cbn [bind].
  eapply ok_step with (Q := fun g => is_UR (transf P) = true ->
     length g = UnruhGWithInputBytes P /\
     firstn (G_len P (prv ch)) g = sr_g s salt k sk pt (prv ch)).
  { destruct (is_UR (transf P)) eqn:Hur; [|cbn [ok]; discriminate].
    cbv zeta. rewrite G_len_prv by auto. destruct (Rg eq_refl (prv ch) Hp) as [Gl Gf].
    rewrite slice0_ok by auto. cbn [bind]. rewrite Gf.
    assert (Hgl : length (sr_g s salt k sk pt (prv ch)) = G_len P (prv ch)) by (apply hash_len; auto).
    pose proof (G_len_le (prv ch) Hur).
    rewrite blit_ok by lia. cbn [ok]. intros _. split.
    - rewrite length_blit0; lia.
    - apply firstn_blit0. auto. }
  intros g Hg. cbn [ok].
  unfold proof_is, sr_opening. cbn [p_seed1 p_seed2 p_inputShare p_communicatedBits
    p_view3Commitment p_view3UnruhG o_seed1 o_seed2 o_in o_comm o_c3 o_g3].
  auto 10.
Qed.

(** The verifier obtains the signer's values from the opening. *)
Lemma vr_views_sr s salt k sk pt ch :
  (forall j, j < 3 -> length (s j) = seedSizeBytes P) ->
  sB <= length sk -> bytes_ok sk -> padding_zero P sk -> 4 * W <= length pt -> bytes_ok pt ->
  ch < 3 ->
  vr_views E P ch (sr_opening s salt k sk pt ch) salt k pt =
  (tget (sr_views s salt k sk pt) ch, tget (sr_views s salt k sk pt) (nxt ch)).
Proof.
  intros Hs H1 H2 H2z H3 H4 Hch.
  pose proof (sr_views_spec s salt k sk pt H1 H2 H3 H4) as Hv.
  pose proof (sr_opening_wf s salt k sk pt ch Hs H1 H2 H3 H4 Hch) as Hwf.
  pose proof (vr_views_spec E P HP1 HE HC ch _ salt k pt Hch Hwf H3 H4) as Hr.
  pose proof (mpc_views_ver E P ch _ _ pt _ Hch Hv) as Hm.
  assert (Hct : clear_tail P (sr_in s salt k sk 2) = sr_in s salt k sk 2).
  { destruct (sr_in_wf s salt k sk 2 H1 H2 ltac:(lia)) as [Hil Hib].
    apply (clear_tail_id P HP1); auto. intros i Hi.
    pose proof (sr_in_wf s salt k sk 0 H1 H2 ltac:(lia)) as I0.
    pose proof (sr_in_wf s salt k sk 1 H1 H2 ltac:(lia)) as I1.
    change (sr_in s salt k sk 2) with
      (lxor_list (lxor_list (firstn sB sk) (sr_in s salt k sk 0)) (sr_in s salt k sk 1)).
    rewrite bit_lxor3 by (auto; apply firstn_wf; auto).
    destruct (party_in_wf E P HP1 HE (s 0) salt k 0 ltac:(lia)) as (_ & _ & Z0).
    destruct (party_in_wf E P HP1 HE (s 1) salt k 1 ltac:(lia)) as (_ & _ & Z1).
    change (sr_in s salt k sk 0) with (party_in E P (s 0) salt k 0).
    change (sr_in s salt k sk 1) with (party_in E P (s 1) salt k 1).
    rewrite Z0, Z1 by apply Hi. rewrite bit_firstn by apply Hi. rewrite H2z by exact Hi. reflexivity. }
  assert (Hsh : forall p sd, p < 3 -> sd = s p ->
    share_in E P sd (sr_in s salt k sk 2) salt k p = sr_in s salt k sk p).
  { intros p sd Hp ->. unfold share_in. rewrite Hct. unfold sr_in. destruct (Nat.ltb_spec p 2); auto. }
  unfold sr_opening in Hr at 1 2 3 4 5 6 7 8.
  cbn [o_seed1 o_seed2 o_in o_comm] in Hr.
  pose proof (nxt_lt ch) as Hn. rewrite !Hsh in Hr by auto.
  destruct (ver_views_unique E P HP1 _ _ _ _ _ _ _ _ _ _ _ _ (fun i _ => eq_refl) Hr Hm) as [A B].
  fold (sr_opening s salt k sk pt ch) in A.
  rewrite <- A, <- B. apply surjective_pairing.
Qed.

Lemma by_party_fun {A} ch (f : nat -> A) j :
  ch < 3 -> j < 3 -> by_party ch (f ch) (f (nxt ch)) (f (prv ch)) j = f j.
Proof.
  intros Hch Hj. destruct (lt3 ch Hch) as [-> | [-> | ->]];
    destruct (lt3 j Hj) as [-> | [-> | ->]]; reflexivity.
Qed.

Lemma vr_sr s salt k sk pub pt ch j :
  (forall j, j < 3 -> length (s j) = seedSizeBytes P) ->
  sB <= length sk -> bytes_ok sk -> padding_zero P sk -> 4 * W <= length pt -> bytes_ok pt ->
  sB <= length pub -> bytes_ok pub ->
  lowmc_relation E P sk pt pub ->
  ch < 3 -> j < 3 ->
  let o := sr_opening s salt k sk pt ch in
  vr_out E P ch o salt k pub pt j = sr_out s salt k sk pt j /\
  vr_commit E P ch o salt k pt j = sr_commit s salt k sk pt j /\
  vr_g E P ch o salt k pt j = sr_g s salt k sk pt j.
Proof.
  intros Hs H1 H2 H2z H3 H4 H5 H6 Hrel Hch Hj o.
  assert (Hv : vr_views E P ch o salt k pt = _) by (apply vr_views_sr; auto).
  unfold vr_out, vr_commit, vr_g. rewrite Hv.
  unfold o, sr_opening. cbn [o_seed1 o_seed2 o_in o_comm o_c3 o_g3].
  split; [|split].
  - rewrite <- (by_party_fun ch (sr_out s salt k sk pt) j) by auto. f_equal.
    apply (sr_rel s salt k) in Hrel; auto. fold sB. rewrite <- Hrel.
    pose proof (fun j Hj => proj1 (sr_out_share s salt k sk pt j H1 H2 H3 H4 Hj)) as Ho.
    fold (sr_out s salt k sk pt ch) (sr_out s salt k sk pt (nxt ch)).
    pose proof (Ho ch Hch) as Wc. pose proof (Ho (nxt ch) (nxt_lt ch)) as Wn.
    pose proof (Ho (prv ch) (prv_lt ch)) as Wp.
    pose proof (Ho 0 ltac:(lia)) as W0. pose proof (Ho 1 ltac:(lia)) as W1.
    pose proof (Ho 2 ltac:(lia)) as W2.
    pose proof (lxor3_wf _ _ _ W0 W1 W2) as Wx.
    pose proof (lxor3_wf _ _ _ Wc Wn Wx) as [Wyl Wyb]. destruct Wp as [Wpl Wpb].
    apply bits_ext; auto; [congruence|]. intros i Hi.
    rewrite !bit_lxor3 by auto.
    destruct (lt3 ch Hch) as [-> | [-> | ->]]; cbn [nxt prv Nat.add];
      change (nxt 0) with 1; change (nxt 1) with 2; change (nxt 2) with 0;
      change (prv 0) with 2; change (prv 1) with 0; change (prv 2) with 1; btauto.
  - apply (by_party_fun ch (sr_commit s salt k sk pt)); auto.
  - apply (by_party_fun ch (sr_g s salt k sk pt)); auto.
Qed.

End Z.
