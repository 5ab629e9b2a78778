(** verify_picnic3 described as a pure function. *)

From Coq Require Import List NArith Arith Bool Lia ZifyBool ZifyNat ZifyN.
From Verif Require Import Base Params Env Spec LowMC Tree Picnic3 BaseFacts ParamFacts LowMCFacts UtilFacts
  TreeShape TreeSeed TreeReveal TreeOpen TreeMissing TreeMerkle TreeVerify TreeSpec TreeTop
  P3Tape P3Aux P3Online P3Mask P3Chal P3Round P3Seeds.
Import ListNotations.

Lemma mapM_aux_ok {A} (I : bytes -> Prop) (f : nat -> bytes -> res (A * bytes)) (g : nat -> A) :
  forall n t a, I a ->
  (forall i a, t <= i < t + n -> I a -> exists a', f i a = Ok (g i, a') /\ I a') ->
  mapM_aux n t f a = Ok (map g (seq t n)).
Proof.
  induction n as [|n IH]; intros t a Ha Hf; [reflexivity|]. cbn [mapM_aux seq map].
  destruct (Hf t a ltac:(lia) Ha) as (a' & -> & Ha'). cbn [bind].
  rewrite (IH (S t) a' Ha'); [reflexivity|]. intros i b Hi Hb. apply Hf; auto. lia.
Qed.

Lemma blit_list_all {A} (b src : list A) : length b = length src -> blit_list b 0 src = src.
Proof.
  intros H. unfold blit_list. cbn [firstn app]. rewrite skipn_all2 by lia. apply app_nil_r.
Qed.

Definition dproof : proof2 := mkProof2 [] [] [] [] [].
Definition pf (sig : signature2) (t : nat) : proof2 :=
  match nth t (g_proofs sig) None with Some pr => pr | None => dproof end.

Section V.
Variable E : env.
Variable P : paramset.

Let n := stateSizeBits P.
Let R := numRounds P.
Let W := stateSizeWords P.
Let sB := stateSizeBytes P.
Let aB := andSizeBytes P.
Let tS := p3_tapeSize P.
Let sz := seedSizeBytes P.
Let sl := saltSizeBytes P.
Let dg := digestSizeBytes P.
Let T := numMPCRounds P.
Let u := numOpenedRounds P.

(** The fields of the proof of one opened round have their sizes. *)
Definition proof_wf (q : proof2) : Prop :=
  length (q_seedInfo q) = 4 * sz /\ length (q_aux q) = aB /\ length (q_C q) = dg /\
  length (q_input q) = sB /\ length (q_msgs q) = aB /\ bytes_ok (q_input q) /\ bytes_ok (q_msgs q).

Definition sig3_wf (sig : signature2) : Prop :=
  length (g_salt sig) = sl /\ length (g_challengeHash sig) = dg /\
  chal_wf P (g_challengeC sig) (g_challengeP sig) /\
  length (g_iSeedInfo sig) = length (rvs T (g_challengeC sig)) * sz /\
  length (g_proofs sig) = T /\
  (forall t, In t (g_challengeC sig) -> exists q, nth t (g_proofs sig) None = Some q /\ proof_wf q).

Section S.
Variable sig : signature2.
Variables (pub pt msg : bytes).
Let C := g_challengeC sig.
Let L := g_challengeP sig.
Let salt := g_salt sig.

Definition vparty (t : nat) : nat := party C L t.

Definition viseeds : tree := srec E P T C (g_iSeedInfo sig) salt 0.

Definition vseeds (t : nat) : tree :=
  if contains C t then srec E P 16 [vparty t] (q_seedInfo (pf sig t)) salt t
  else sgen E P 16 (nd viseeds (nF (Nat.log2_up T) + t)) salt t.

Definition vtapes0 (t : nat) : list bytes := tapes_of E P salt t (leaf16 (vseeds t)).

Definition vtapes (t : nat) : list bytes := if contains C t then vtapes0 t else aux_tapes E P (vtapes0 t).

Definition vrow (t : nat) : list bytes :=
  if contains C t then row_open E P salt t (leaf16 (vseeds t)) (q_aux (pf sig t)) (q_C (pf sig t)) (vparty t)
  else row_full E P salt t (leaf16 (vseeds t)) (aux_of P (vtapes t)).

Definition vch (t : nat) : bytes := ch_of E P (vrow t).

(** The tapes of the online phase of an opened round. *)
Definition votl (t : nat) : list bytes :=
  list_set (if vparty t =? 15 then vtapes0 t else with_aux P (vtapes0 t) (q_aux (pf sig t)))
           (vparty t) (zeros tS).

Definition vml (t : nat) : list bytes := list_set (zero_msgs P) (vparty t) (q_msgs (pf sig t)).

Definition vout (t : nat) : bool :=
  eqb_bytes (oout E P (votl t) (Some (vparty t)) (vml t) (bit (q_input (pf sig t))) (bit pt)) (firstn sB pub).

Definition vms (t : nat) : list bytes :=
  omsgs E P (votl t) (Some (vparty t)) (vml t) (bit (q_input (pf sig t))) (bit pt).

Definition vcv (t : nat) : bytes := cv_of E P (q_input (pf sig t)) (vms t).

Definition vCv : list (option bytes) := map (fun t => if contains C t then Some (vcv t) else None) (seq 0 T).

Definition vsim : bool := forallb (fun t => negb (contains C t) || vout t) (seq 0 T).

(** The Merkle tree computed by the verifier. *)
Definition vmerkle : option tree :=
  val None (t0 <- createTree T dg ;;
            r <- addMerkleNodes t0 (others P C) (g_cvInfo sig) ;;
            match r with None => Ok None | Some t1 => verifyMerkleTree E P t1 vCv salt end).

Definition hcp (Ch : list bytes) (root slt : bytes) : bytes :=
  hash E P HASH_PREFIX_NONE
    (map (firstn dg) Ch ++ [firstn dg root; firstn sl slt; firstn sB pub; firstn sB pt; msg]) dg.

Definition vresult : bool :=
  vsim && match vmerkle with
          | None => false
          | Some t => eqb_bytes (g_challengeHash sig) (hcp (map vch (seq 0 T)) (nd t 0) salt)
          end.

Hypothesis HP3 : wfP3 P.
Hypothesis HE : env_bytes_ok E.
Hypothesis HC : constants_ok E P.
Hypothesis HI : inverses_ok E P.

Lemma HCP_hash_ok (Ch : list bytes) root slt : length Ch = T -> (forall t, t < T -> dg <= length (nth t Ch [])) ->
  dg <= length root -> sl <= length slt -> sB <= length pub -> sB <= length pt ->
  HCP_hash E P Ch root slt pub pt msg = Ok (hcp Ch root slt).
Proof.
  intros H1 H2 H3 H4 H5 H6. unfold HCP_hash. pose proof (w3_u P HP3) as Hu.
  replace (numOpenedRounds P <? numMPCRounds P) with true by lia. cbn [c_assert bind].
  rewrite (mapM_seq_pure T 0 _ (fun t => firstn dg (nth t Ch []))).
  - cbn [bind]. rewrite !slice0_ok by auto. cbn [bind]. unfold hcp.
    rewrite <- (map_map (fun t => nth t Ch []) (firstn dg)). rewrite <- H1, map_seq_nth. reflexivity.
  - intros t Ht. rewrite (rd_ok Ch t ([] : bytes)) by lia. cbn [bind]. apply slice0_ok. apply H2. lia.
Qed.

Lemma T_rng : 2 <= T <= 1024.
Proof. pose proof (w3_u P HP3). pose proof (w3_T P HP3). unfold T. lia. Qed.

Lemma n_sB : n <= 8 * sB.
Proof. pose proof (sB_W P HP3) as H. fold n sB in H. unfold n, sB in *. destruct H. unfold sB, n in *; lia. Qed.

Lemma sB_4W : sB <= 4 * W.
Proof. pose proof (sB_W P HP3) as H. unfold sB, W. destruct H. lia. Qed.

Hypothesis Hw : sig3_wf sig.
Hypothesis Hpt : 4 * W <= length pt.
Hypothesis Hptb : bytes_ok pt.
Hypothesis Hpub : sB <= length pub.

Lemma C_ne : C <> [].
Proof.
  destruct Hw as (_ & _ & (_ & H & _) & _). fold C in H. intros ->. pose proof (w3_u P HP3). cbn in H. lia.
Qed.

Lemma C_lt : Forall (fun l => l < T) C.
Proof. destruct Hw as (_ & _ & (_ & _ & H & _) & _). exact H. Qed.

Lemma salt_le : sl <= length salt.
Proof. destruct Hw as (H & _). fold salt in H. lia. Qed.

Lemma viseeds_ok : exists t0, createTree T sz = Ok t0 /\
  reconstructSeeds E P t0 C (g_iSeedInfo sig) salt 0 = Ok (Some viseeds) /\
  shape T (Nat.log2_up T) sz viseeds.
Proof.
  destruct Hw as (H1 & H2 & H3 & H4 & _).
  apply (srec_ok E P HP3 HE T T_rng C (g_iSeedInfo sig) salt 0); auto using C_lt, C_ne, salt_le.
Qed.

Lemma party_lt t : In t C -> unopened_party C L t = Ok (vparty t) /\ vparty t < 16.
Proof. intros Ht. apply (unopened_party_ok P); auto. apply Hw. Qed.

Lemma pf_ok t : In t C -> rd_proof (g_proofs sig) t = Ok (pf sig t) /\ proof_wf (pf sig t).
Proof.
  intros Ht. destruct Hw as (_ & _ & _ & _ & Hl & H). destruct (H t Ht) as (q & Hq & Hq').
  assert (t < T). { pose proof C_lt as HF. rewrite Forall_forall in HF. auto. }
  unfold pf, rd_proof. rewrite (rd_ok _ t None) by lia. rewrite Hq. cbn [bind]. auto.
Qed.

Lemma vseeds_ok t : t < T -> verify_seeds E P sig viseeds t = Ok (vseeds t) /\ shape 16 4 sz (vseeds t).
Proof.
  intros Ht. unfold verify_seeds, vseeds. fold C L salt. pose proof (w3_N P HP3) as HN. rewrite HN.
  destruct (contains C t) eqn:Ec; cbn [negb].
  - apply contains_In in Ec. destruct (party_lt t Ec) as [Hp Hp']. destruct (pf_ok t Ec) as [Hq (Q1 & _)].
    destruct (srec_ok E P HP3 HE 16 ltac:(lia) [vparty t] (q_seedInfo (pf sig t)) salt t) as (t0 & Ht0 & Hr & Hs).
    + constructor; auto.
    + discriminate.
    + apply salt_le.
    + rewrite rvs16 by auto. auto.
    + rewrite Ht0. cbn [bind]. rewrite Hp. cbn [bind]. rewrite Hq. cbn [bind]. rewrite Hr. cbn [bind]. split; auto.
  - destruct viseeds_ok as (t0 & _ & _ & Hs).
    rewrite (getLeaf_eq T (Nat.log2_up T) sz) by auto. cbn [bind].
    assert (Hl : sz <= length (nd viseeds (nF (Nat.log2_up T) + t))).
    { unfold nd. rewrite (sh_nl _ _ _ _ Hs); [unfold sz; lia|]. unfold nN, nF. lia. }
    destruct (sgen_ok E P HP3 HE 16 ltac:(lia) _ salt t Hl salt_le) as [H1 H2].
    split; [exact H1|]. apply H2.
Qed.

Lemma vtapes0_rows t : rows 16 tS (vtapes0 t).
Proof. apply tapes_of_rows; auto. Qed.

Lemma vcommit_ok t a : t < T -> aux_buf P a ->
  exists a', verify_commit E P sig (vseeds t) t a = Ok (mkTapes (vtapes t) 0, vrow t, a') /\ aux_buf P a'.
Proof.
  intros Ht Ha. destruct (vseeds_ok t Ht) as [_ Hs]. unfold verify_commit. fold C L salt.
  rewrite (createRandomTapes_ok E P HP3 (vseeds t) Hs salt salt_le t). cbn [bind]. fold (vtapes0 t).
  unfold vrow, vtapes. destruct (contains C t) eqn:Ec; cbn [negb].
  - apply contains_In in Ec. destruct (party_lt t Ec) as [-> Hp']. destruct (pf_ok t Ec) as [-> (Q1 & Q2 & Q3 & _)].
    cbn [bind]. rewrite (commit_row_open_ok E P HP3 HE _ Hs salt salt_le) by auto. cbn [bind]. eauto.
  - rewrite (computeAuxTape_ok E P HP3 HE HC HI) by apply vtapes0_rows. cbn [bind].
    destruct (commit_row_ok E P HP3 _ Hs salt salt_le t (aux_tapes E P (vtapes0 t)) 0 a) as (a' & -> & Ha'); auto.
    + apply aux_tapes_spec; auto. apply vtapes0_rows.
    + cbn [bind]. eauto.
Qed.

Lemma vrow_drow t : t < T -> drow P (vrow t).
Proof.
  intros Ht. unfold vrow. destruct (contains C t) eqn:Ec.
  - apply row_open_drow; auto. apply contains_In in Ec. apply pf_ok in Ec. apply Ec.
  - apply row_full_drow; auto.
Qed.

Lemma votl_rows t : In t C -> rows 16 tS (votl t).
Proof.
  intros Ht. destruct (party_lt t Ht) as [_ Hp]. unfold votl. apply rows_set; auto.
  - destruct (vparty t =? 15); [apply vtapes0_rows|]. apply with_aux_spec; auto. apply vtapes0_rows.
  - apply length_zeros.
  - apply bytes_ok_zeros.
Qed.

Lemma vml_rows t : In t C -> rows 16 aB (vml t).
Proof.
  intros Ht. destruct (party_lt t Ht) as [_ Hp]. destruct (pf_ok t Ht) as [_ (_ & _ & _ & _ & Q5 & _ & Q7)].
  unfold vml. apply rows_set; auto. apply zero_msgs_rows.
Qed.

Lemma vview_ok t : t < T ->
  verify_view E P sig (mkTapes (vtapes t) 0) pub pt t =
  Ok (if negb (contains C t) || vout t then Some (if contains C t then Some (vcv t) else None) else None).
Proof.
  intros Ht. unfold verify_view, vtapes. fold C L. pose proof (w3_N P HP3) as HN. rewrite HN.
  change (16 - 1) with 15. destruct (contains C t) eqn:Ec; cbn [negb orb]; [|reflexivity].
  apply contains_In in Ec. destruct (party_lt t Ec) as [-> Hp].
  destruct (pf_ok t Ec) as [-> (Q1 & Q2 & Q3 & Q4 & Q5 & Q6 & Q7)]. cbn [bind].
  pose proof (vtapes0_rows t) as Hr0.
  assert (Hset : (if negb (vparty t =? 15) then setAuxBits P (mkTapes (vtapes0 t) 0) (q_aux (pf sig t))
                  else Ok (mkTapes (vtapes0 t) 0))
                 = Ok (mkTapes (if vparty t =? 15 then vtapes0 t else with_aux P (vtapes0 t) (q_aux (pf sig t))) 0)).
  { destruct (vparty t =? 15); cbn [negb]; [reflexivity|]. apply setAuxBits_ok; auto.
    rewrite Q2. pose proof (aB_nR P HP3) as Ha. fold n R aB in Ha. unfold n, R, aB in *. lia. }
  rewrite Hset. cbn [bind tp_tape tp_pos].
  set (tl := if vparty t =? 15 then vtapes0 t else with_aux P (vtapes0 t) (q_aux (pf sig t))).
  assert (Htl : rows 16 tS tl).
  { unfold tl. destruct (vparty t =? 15); auto. apply with_aux_spec; auto. }
  rewrite (rd_ok tl (vparty t) []) by (rewrite (proj1 Htl); auto). cbn [bind].
  rewrite blit_ok by (rewrite length_zeros; rewrite (proj1 (proj2 Htl _ Hp)); fold tS; lia). cbn [bind].
  rewrite wr_ok by (rewrite (proj1 Htl); auto). cbn [bind].
  rewrite (slice_all (q_msgs (pf sig t))) by (symmetry; exact Q5). cbn [bind].
  unfold allocateMsgs. rewrite HN. fold (zero_msgs P). cbn [ms_msgs].
  rewrite (rd_ok (zero_msgs P) (vparty t) []) by (rewrite (proj1 (zero_msgs_rows P)); auto). cbn [bind].
  destruct (zero_msgs_rows P) as [Z1 Z2]. destruct (Z2 _ Hp) as [Z3 _].
  rewrite blit_ok by (unfold aB in *; lia). cbn [bind].
  rewrite wr_ok by (rewrite Z1; auto). cbn [bind].
  rewrite (blit_list_all (nth (vparty t) tl [])) by (rewrite length_zeros; rewrite (proj1 (proj2 Htl _ Hp)); reflexivity).
  rewrite (blit_list_all (nth (vparty t) (zero_msgs P) [])) by (unfold aB in *; lia).
  fold (vml t). unfold tl. fold tS. fold (votl t).
  rewrite (simulateOnline_ok E P HP3 HE HC); auto.
  - fold sB. fold (vout t). fold (vms t). cbn [bind]. destruct (vout t); [|reflexivity].
    rewrite (commit_v_ok E P HP3); auto.
    + fold sB. lia.
    + exact (omsgs_rows E P _ _ _ _ _).
  - apply votl_rows; auto.
  - apply vml_rows; auto.
  - intros v Hv. injection Hv as <-. auto.
  - rewrite Q4. apply n_sB.
Qed.

Lemma vviews_ok k i : i + k <= T ->
  verify_views E P k i sig (map (fun t => mkTapes (vtapes t) 0) (seq 0 T)) pub pt =
  Ok (if forallb (fun t => negb (contains C t) || vout t) (seq i k)
      then Some (map (fun t => if contains C t then Some (vcv t) else None) (seq i k)) else None).
Proof.
  revert i. induction k as [|k IH]; intros i Hi; [reflexivity|]. cbn [verify_views seq forallb map].
  rewrite (rd_ok _ i (mkTapes [] 0)) by (rewrite map_length, seq_length; lia). cbn [bind].
  rewrite nth_map_seq by lia. rewrite vview_ok by lia. cbn [bind].
  destruct (negb (contains C i) || vout i); [|reflexivity]. rewrite IH by lia. cbn [bind andb].
  destruct (forallb _ _); reflexivity.
Qed.

Lemma vCv_nth t : t < T -> nth t vCv None = if contains C t then Some (vcv t) else None.
Proof. intros Ht. unfold vCv. apply nth_map_seq. auto. Qed.

Lemma vCv_len : length vCv = T.
Proof. unfold vCv. rewrite map_length, seq_length. reflexivity. Qed.

Lemma vcv_len t : length (vcv t) = dg.
Proof. unfold vcv, cv_of. apply hash_length. auto. Qed.

Lemma others_ok : Forall (fun l => l < T) (others P C) /\ length (others P C) < T.
Proof.
  destruct Hw as (_ & _ & (H1 & H2 & H3 & _) & _). fold C in H1, H2, H3. split.
  - apply Forall_forall. intros x Hx. apply others_In in Hx. apply Hx.
  - rewrite others_length by auto. pose proof (w3_u P HP3). unfold T. lia.
Qed.

Lemma vmerkle_ok : exists t0, createTree T dg = Ok t0 /\ exists r, addMerkleNodes t0 (others P C) (g_cvInfo sig) = Ok r /\
  match r with
  | None => vmerkle = None
  | Some t1 => verifyMerkleTree E P t1 vCv salt = Ok vmerkle /\
      match vmerkle with Some t => shape T (Nat.log2_up T) dg t | None => True end
  end.
Proof.
  pose proof T_rng as HT. destruct others_ok as [Ho1 Ho2].
  pose proof (createTree_ok T (Nat.log2_up T) ltac:(lia) eq_refl (D_small T HT) dg) as H. apply ok_ex in H.
  destruct H as (t0 & He & Hs & _ & Hv). exists t0. split; [auto|].
  destruct (mrvs_ok T HT (others P C) dg t0 Ho1 Hs) as [Hr (m & Hm)].
  pose proof (n_pow T HT) as Hpow. pose proof (w3_dg P HP3) as Hdg. fold dg in Hdg.
  destruct (addMerkleNodes_ok P T (Nat.log2_up T) ltac:(lia) Hpow _ t0 m _ (g_cvInfo sig) Hs Hv Ho2 ltac:(fold dg; lia) Hr Hm)
    as (o & Ho & Ho').
  exists o. split; [auto|]. unfold vmerkle. rewrite He. cbn [bind]. rewrite Ho. cbn [bind].
  destruct o as [t1|]; [|reflexivity]. destruct Ho' as (_ & _ & Hs1 & Hh1 & _).
  assert (Hok : ok (verifyMerkleTree E P t1 vCv salt) (fun o => match o with
      | Some s => checked E P T (Nat.log2_up T) salt vCv t1 s /\ hv s 0 = true
      | None => (exists l, l < T /\ given vCv l = true /\ hv t1 (nF (Nat.log2_up T) + l) = true) \/
              (exists s, checked E P T (Nat.log2_up T) salt vCv t1 s /\ hv s 0 = false)
      end)).
  { apply verifyMerkleTree_ok; auto.
    - lia.
    - apply salt_le.
    - intros x Hx. rewrite Hh1 in Hx. apply contains_In in Hx. apply Hm in Hx. apply Hx.
    - apply vCv_len.
    - intros l d Hl. destruct (Nat.lt_ge_cases l T) as [Hlt|Hge].
      + rewrite vCv_nth in Hl by auto. destruct (contains C l); [|discriminate]. injection Hl as <-.
        rewrite vcv_len. unfold dg. lia.
      + rewrite nth_overflow in Hl by (rewrite vCv_len; auto). discriminate. }
  apply ok_ex in Hok. destruct Hok as (o & Hoe & Hoo). rewrite Hoe. cbn [val]. split; [auto|].
  destruct o; [|auto]. destruct Hoo as [Hck _]. apply Hck.
Qed.

Lemma verify_picnic3_ok : verify_picnic3 E P sig pub pt msg = Ok vresult.
Proof.
  unfold verify_picnic3. fold T C salt sz dg. destruct vmerkle_ok as (t0 & Ht0 & r & Hr & Hm). rewrite Ht0. cbn [bind].
  destruct viseeds_ok as (t1 & Ht1 & Hrec & _). rewrite Ht1. cbn [bind]. rewrite Hrec. cbn [bind].
  rewrite (mapM_seq_pure T 0 _ vseeds) by (intros t Ht; apply vseeds_ok; lia). cbn [bind].
  rewrite (mapM_aux_ok (aux_buf P) _ (fun t => (mkTapes (vtapes t) 0, vrow t))).
  2:{ apply aux_buf_zeros. }
  2:{ intros t a Ht Ha. rewrite (rd_ok _ t (mkTree 0 [] 0 [] [] 0 0)) by (rewrite map_length, seq_length; lia).
      cbn [bind]. rewrite nth_map_seq by lia. destruct (vcommit_ok t a ltac:(lia) Ha) as (a' & -> & Ha').
      cbn [bind]. eauto. }
  cbn [bind].
  rewrite (mapM_seq_pure T 0 _ vch).
  2:{ intros t Ht. rewrite (rd_ok _ t (mkTapes [] 0, [])) by (rewrite map_length, seq_length; lia).
      cbn [bind]. rewrite nth_map_seq by lia. apply commit_h_ok; auto. apply vrow_drow. lia. }
  cbn [bind]. rewrite map_map. cbn [fst]. rewrite vviews_ok by lia. cbn [bind].
  fold vsim vCv. unfold vresult. destruct vsim; cbn [andb]; [|reflexivity].
  destruct Hw as (_ & Hh & (H1 & H2 & H3 & _) & _). rewrite getMissingLeavesList_ok by auto. cbn [bind].
  fold C. rewrite Hr. cbn [bind]. destruct r as [tr|].
  2:{ rewrite Hm. reflexivity. }
  destruct Hm as [-> Hs]. cbn [bind]. destruct vmerkle as [s|]; [|reflexivity].
  rewrite (rd_node T (Nat.log2_up T) dg) by (auto; unfold nN; pose proof T_rng; lia). cbn [bind].
  assert (Hr0 : length (nd s 0) = dg).
  { unfold nd. apply (sh_nl _ _ _ _ Hs). unfold nN. pose proof T_rng. lia. }
  rewrite HCP_hash_ok; auto.
  - cbn [bind]. rewrite memcmp_ok.
    + f_equal. f_equal.
      * apply firstn_all2. fold dg in Hh. rewrite Hh. auto.
      * apply firstn_all2. unfold hcp. rewrite hash_length; auto.
    + fold dg in Hh. rewrite Hh. auto.
    + unfold hcp. rewrite hash_length; auto.
  - rewrite map_length, seq_length. auto.
  - intros t Ht. rewrite nth_map_seq by auto. unfold vch, ch_of. rewrite hash_length; auto.
  - rewrite Hr0. auto.
  - apply salt_le.
  - pose proof sB_4W. lia.
Qed.

End S.
End V.
