(** sign_picnic3 described as a pure function. *)

From Coq Require Import List NArith Arith Bool Lia ZifyBool ZifyNat ZifyN.
From Verif Require Import Base Params Env Spec LowMC Tree Picnic3 BaseFacts ParamFacts LowMCFacts UtilFacts
  ZkbChal TreeShape TreeSeed TreeReveal TreeOpen TreeMissing TreeMerkle TreeVerify TreeSpec TreeTop
  P3Tape P3Aux P3Online P3Mask P3Chal P3Round P3Seeds P3Verify.
Import ListNotations.

Local Opaque pack.

Section G.
Variable E : env.
Variable P : paramset.

Let n := stateSizeBits P.
Let R := numRounds P.
Let W := stateSizeWords P.
Let sB := stateSizeBytes P.
Let aB := andSizeBytes P.
Let tS := p3_tapeSize P.
Let sz := seedSizeBytes P.
Let sl := saltSizeBytes P.
Let dg := digestSizeBytes P.
Let T := numMPCRounds P.
Let u := numOpenedRounds P.
Let DT := Nat.log2_up T.

Section S.
Variables (sk pub pt msg : bytes).

Definition ssr : bytes := hash E P HASH_PREFIX_NONE
   [firstn sB sk; msg; firstn sB pub; firstn sB pt; intLE n] (sl + sz).
Definition ssalt : bytes := firstn sl ssr.
Definition sroot : bytes := firstn sz (skipn sl ssr).

Definition siseeds : tree := sgen E P T sroot ssalt 0.
Definition sseeds (t : nat) : tree := sgen E P 16 (nd siseeds (nF DT + t)) ssalt t.
Definition stl0 (t : nat) : list bytes := tapes_of E P ssalt t (leaf16 (sseeds t)).
Definition stl (t : nat) : list bytes := aux_tapes E P (stl0 t).
Definition smk (t : nat) : bytes := pack (4 * W) (fun i => xorb (bit (aux_key E P (stl0 t)) i) (bit sk i)).
Definition srow (t : nat) : list bytes := row_full E P ssalt t (leaf16 (sseeds t)) (aux_of P (stl t)).
Definition sms (t : nat) : list bytes := omsgs E P (stl t) None (zero_msgs P) (bit (smk t)) (bit pt).
Definition sch (t : nat) : bytes := ch_of E P (srow t).
Definition scv (t : nat) : bytes := cv_of E P (smk t) (sms t).
Definition smerkle : tree :=
  val dtree (t0 <- createTree T dg ;; buildMerkleTree E P t0 (map (@Some bytes) (map scv (seq 0 T))) ssalt).
Definition shash : bytes := hcp E P pub pt msg (map sch (seq 0 T)) (nd smerkle 0) ssalt.

(** The encryption of the plaintext under the private key. *)
Definition senc : bytes :=
  pack sB (fun i => if i <? n then lowmc_enc (lowmc_of E P) (bit sk) (bit pt) i else false).

Definition sproof (C L : list nat) (t : nat) : option proof2 :=
  if contains C t then
    let v := party C L t in
    Some (mkProof2 (sopen P 16 (sseeds t) [v]) (if v =? 15 then zeros aB else aux_of P (stl t))
                   (nth v (srow t) []) (firstn sB (smk t)) (nth v (sms t) []))
  else None.

Definition ssig (C L : list nat) : signature2 :=
  mkSig2 ssalt (sopen P T siseeds C) (concat (map (nd smerkle) (mrvs T (others P C)))) shash C L
         (map (sproof C L) (seq 0 T)).

Hypothesis HP3 : wfP3 P.
Hypothesis HE : env_bytes_ok E.
Hypothesis HC : constants_ok E P.
Hypothesis HI : inverses_ok E P.
Hypothesis Hsk : 4 * W <= length sk.
Hypothesis Hskb : bytes_ok sk.
Hypothesis Hpt : 4 * W <= length pt.
Hypothesis Hptb : bytes_ok pt.
Hypothesis Hpub : sB <= length pub.

Let HT : 2 <= T <= 1024 := T_rng P HP3.

Lemma ssr_len : length ssr = sl + sz.
Proof. unfold ssr. apply hash_length. auto. Qed.

Lemma ssalt_len : length ssalt = sl.
Proof. unfold ssalt. rewrite firstn_length, ssr_len. lia. Qed.

Lemma sroot_len : length sroot = sz.
Proof. unfold sroot. rewrite firstn_length, skipn_length, ssr_len. lia. Qed.

Lemma siseeds_ok : generateSeeds E P T sroot ssalt 0 = Ok siseeds /\ shape T DT sz siseeds.
Proof.
  destruct (sgen_ok E P HP3 HE T HT sroot ssalt 0) as [H1 H2].
  - rewrite sroot_len. auto.
  - rewrite ssalt_len. auto.
  - split; [exact H1|apply H2].
Qed.

Lemma iseed_len t : t < T -> length (nd siseeds (nF DT + t)) = sz.
Proof.
  intros Ht. destruct siseeds_ok as [_ Hs]. unfold nd. apply (sh_nl _ _ _ _ Hs). unfold nN, nF, DT. lia.
Qed.

Lemma sseeds_ok t : t < T -> generateSeeds E P 16 (nd siseeds (nF DT + t)) ssalt t = Ok (sseeds t) /\
  shape 16 4 sz (sseeds t).
Proof.
  intros Ht. destruct (sgen_ok E P HP3 HE 16 ltac:(lia) (nd siseeds (nF DT + t)) ssalt t) as [H1 H2].
  - rewrite iseed_len by auto. auto.
  - rewrite ssalt_len. auto.
  - split; [exact H1|apply H2].
Qed.

Lemma stl0_rows t : rows 16 tS (stl0 t).
Proof. exact (tapes_of_rows E P HE _ _ _). Qed.

Lemma stl_rows t : rows 16 tS (stl t).
Proof. apply aux_tapes_spec; auto. apply stl0_rows. Qed.

Lemma leaves_rd n0 D s t i : shape n0 D s t -> i < n0 -> rd (getLeaves t) i = Ok (nd t (nF D + i)).
Proof.
  intros Hs Hi. pose proof (firstLeaf_eq n0 D s t Hs) as Hf. unfold getLeaves.
  rewrite Hf. rewrite (rd_ok _ i ([] : bytes)).
  - unfold nd. rewrite nth_skipn. reflexivity.
  - rewrite skipn_length. rewrite (sh_nodes _ _ _ _ Hs). unfold nN, nF. lia.
Qed.

Definition sround (t : nat) : p3_round :=
  mkP3Round (sseeds t) (mkTapes (stl t) 0) (blit_list (zeros (4 * W)) 0 (aux_key E P (stl0 t))).

Lemma aux_key_spec tl : length (aux_key E P tl) = sB /\ bytes_ok (aux_key E P tl) /\
  forall k, bit (aux_key E P tl) k = if k <? n then mkey E P tl k else false.
Proof.
  unfold aux_key. destruct (pack_spec (stateSizeBytes P) (fun i => if i <? stateSizeBits P then mkey E P tl i else false)) as (H1 & H2 & H3).
  split; [auto|]. split; [auto|]. intros k. rewrite H3. pose proof (n_sB P HP3) as Hn. fold n in Hn. fold n.
  destruct (Nat.ltb_spec k n); destruct (Nat.ltb_spec k (8 * stateSizeBytes P)); auto; lia.
Qed.

Lemma preprocess_ok t : t < T -> p3_preprocess E P (getLeaves siseeds) ssalt t = Ok (sround t).
Proof.
  intros Ht. destruct siseeds_ok as [_ Hs]. unfold p3_preprocess. rewrite (leaves_rd T DT sz) by auto. cbn [bind].
  destruct (sseeds_ok t Ht) as [H1 H2]. rewrite (w3_N P HP3), H1. cbn [bind].
  rewrite (createRandomTapes_ok E P HP3 _ H2 ssalt) by (rewrite ssalt_len; auto). cbn [bind]. fold (stl0 t).
  rewrite (computeAuxTape_ok E P HP3 HE HC HI) by apply stl0_rows. cbn [bind].
  rewrite blit_ok; [reflexivity|]. rewrite length_zeros.
  destruct (aux_key_spec (stl0 t)) as (-> & _). pose proof (sB_4W P HP3). fold sB W in H. lia.
Qed.

Lemma smk_spec t : length (smk t) = 4 * W /\ bytes_ok (smk t) /\
  forall k, bit (smk t) k = if k <? 32 * W then xorb (bit (aux_key E P (stl0 t)) k) (bit sk k) else false.
Proof.
  unfold smk. destruct (pack_spec (4 * W) (fun i => xorb (bit (aux_key E P (stl0 t)) i) (bit sk i))) as (H1 & H2 & H3).
  split; [auto|]. split; [auto|]. intros k. rewrite H3. replace (8 * (4 * W)) with (32 * W) by lia. reflexivity.
Qed.

Lemma masked_ok t : xor_array (pr_input (sround t)) (pr_input (sround t)) sk W = Ok (smk t).
Proof.
  cbn [sround pr_input]. destruct (aux_key_spec (stl0 t)) as (A1 & A2 & A3). pose proof (sB_4W P HP3) as H4. fold sB W in H4.
  set (b := blit_list (zeros (4 * W)) 0 (aux_key E P (stl0 t))).
  assert (Hb : length b = 4 * W) by (unfold b; rewrite length_blit_list; rewrite length_zeros; lia).
  assert (Hbb : bytes_ok b) by (apply bytes_ok_blit; auto using bytes_ok_zeros).
  assert (Hbit : forall k, bit b k = bit (aux_key E P (stl0 t)) k).
  { intros k. unfold b. rewrite bit_blit0 by (rewrite length_zeros; lia). rewrite A1.
    destruct (Nat.ltb_spec k (8 * sB)); auto. rewrite bit_zeros, A3. pose proof (n_sB P HP3) as Hn. fold n sB in Hn.
    replace (k <? n) with false by lia. reflexivity. }
  pose proof (xor_array_spec b b sk W ltac:(lia) ltac:(lia) ltac:(lia)) as H. apply ok_ex in H.
  destruct H as (o & -> & H1 & H2 & H3). f_equal. unfold smk. apply pack_unique.
  - lia.
  - apply H2; auto.
  - intros k Hk. rewrite H3. replace (k <? 32 * W) with true by lia. rewrite Hbit. reflexivity.
Qed.

Lemma smk_key t : veq n (bit (smk t)) (vxor (bit sk) (mkey E P (stl0 t))).
Proof.
  intros i Hi. destruct (smk_spec t) as (_ & _ & ->). destruct (aux_key_spec (stl0 t)) as (_ & _ & ->).
  pose proof (n_sB P HP3) as Hn. pose proof (sB_4W P HP3) as H4. fold n sB W in Hn, H4.
  replace (i <? 32 * W) with true by lia. replace (i <? n) with true by lia. unfold vxor. apply xorb_comm.
Qed.

Lemma sout_enc t : oout E P (stl t) None (zero_msgs P) (bit (smk t)) (bit pt) = senc.
Proof.
  unfold oout, senc. destruct (pack_spec sB (fun i => if i <? n then lowmc_enc (lowmc_of E P) (bit sk) (bit pt) i else false)) as (H1 & H2 & H3).
  fold sB n. symmetry. apply pack_unique; auto. intros k Hk. rewrite H3. replace (k <? 8 * sB) with true by lia.
  destruct (Nat.ltb_spec k n) as [Hn|Hn]; [|reflexivity]. symmetry.
  apply (ost_final E P HP3 HI); auto.
  - apply stl0_rows.
  - apply smk_key.
Qed.

Lemma online_ok t : p3_online E P (sround t) sk pub pt =
  Ok (if eqb_bytes senc (firstn sB pub) then Some (smk t, mkMsgs (sms t) (n * R) None) else None).
Proof.
  unfold p3_online. fold W. rewrite masked_ok. cbn [bind sround pr_tapes]. unfold allocateMsgs. rewrite (w3_N P HP3).
  fold (zero_msgs P). destruct (smk_spec t) as (K1 & K2 & K3).
  pose proof (n_sB P HP3) as Hn. pose proof (sB_4W P HP3) as H4. fold n sB W in Hn, H4.
  rewrite (simulateOnline_ok E P HP3 HE HC); auto.
  - cbn [bind]. rewrite sout_enc. fold sB n R (sms t). destruct (eqb_bytes senc (firstn sB pub)); reflexivity.
  - apply stl_rows.
  - apply zero_msgs_rows.
  - discriminate.
  - fold n. lia.
Qed.

Lemma onlines_ok ts : p3_onlines E P (map sround ts) sk pub pt =
  Ok (if eqb_bytes senc (firstn sB pub) then Some (map (fun t => (smk t, mkMsgs (sms t) (n * R) None)) ts)
      else match ts with [] => Some [] | _ => None end).
Proof.
  induction ts as [|t ts IH]; cbn [map p3_onlines].
  - destruct (eqb_bytes _ _); reflexivity.
  - rewrite online_ok. cbn [bind]. destruct (eqb_bytes senc (firstn sB pub)) eqn:He; [|reflexivity].
    rewrite IH. reflexivity.
Qed.

Lemma srow_drow t : drow P (srow t).
Proof. exact (row_full_drow E P HE _ _ _ _). Qed.

Lemma scv_len t : length (scv t) = dg.
Proof. exact (hash_length E P _ _ _ HE). Qed.

Lemma smerkle_ok : exists t0, createTree T dg = Ok t0 /\
  buildMerkleTree E P t0 (map (@Some bytes) (map scv (seq 0 T))) ssalt = Ok smerkle /\
  full_merkle E P T DT ssalt (map scv (seq 0 T)) smerkle.
Proof.
  pose proof (createTree_ok T DT ltac:(lia) eq_refl (D_small T HT) dg) as H. apply ok_ex in H.
  destruct H as (t0 & He & Hs & Hz & Hv). exists t0. split; [auto|].
  assert (Hok : ok (buildMerkleTree E P t0 (map (@Some bytes) (map scv (seq 0 T))) ssalt)
                   (full_merkle E P T DT ssalt (map scv (seq 0 T)))).
  { apply buildMerkleTree_ok; auto.
    - lia.
    - apply (n_pow T HT).
    - rewrite ssalt_len. auto.
    - rewrite map_length, seq_length. reflexivity.
    - intros x Hx. apply in_map_iff in Hx. destruct Hx as (t & <- & _). rewrite scv_len. auto. }
  apply ok_ex in Hok. destruct Hok as (t & Hb & Hf). unfold smerkle. rewrite He. cbn [bind]. rewrite Hb. auto.
Qed.

Lemma shash_len : length shash = dg.
Proof. unfold shash, hcp. apply hash_length. auto. Qed.

Lemma prove_ok C L t : chal_wf P C L -> t < T ->
  p3_prove P C L t (sround t) (smk t, mkMsgs (sms t) (n * R) None) (srow t) = Ok (sproof C L t).
Proof.
  intros Hw Ht. unfold p3_prove, sproof. destruct (contains C t) eqn:Ec; [|reflexivity].
  apply contains_In in Ec. destruct (unopened_party_ok P C L t Hw Ec) as [-> Hp]. cbn [bind].
  set (v := party C L t) in *. cbn [sround pr_seeds pr_tapes fst snd ms_msgs].
  destruct (sseeds_ok t Ht) as [_ Hs]. pose proof (w3_sd P HP3) as Hsz. fold sz in Hsz.
  rewrite (w3_N P HP3). change (16 - 1) with 15.
  rewrite (sopen_ok P HP3 16); auto.
  2:{ lia. }
  2:{ unfold sz in *. lia. }
  cbn [reveal_or_UB bind].
  assert (Haux : (if negb (v =? 15) then getAuxBits P (zeros (andSizeBytes P)) (mkTapes (stl t) 0)
                  else Ok (zeros (andSizeBytes P))) = Ok (if v =? 15 then zeros aB else aux_of P (stl t))).
  { destruct (v =? 15); cbn [negb]; [reflexivity|]. exact (getAux_zeros P HP3 (sseeds t) ssalt (Nat.eq_le_incl _ _ (eq_sym ssalt_len)) t (stl t) 0 (stl_rows t)). }
  rewrite Haux. cbn [bind]. destruct (smk_spec t) as (K1 & _). pose proof (sB_4W P HP3) as H4. fold sB W in H4.
  rewrite (slice0_ok (smk t)) by (fold sB; lia). cbn [bind].
  destruct (omsgs_rows E P (stl t) None (zero_msgs P) (bit (smk t)) (bit pt)) as [M1 M2]. fold (sms t) in M1, M2.
  rewrite (rd_ok (sms t) v ([] : bytes)) by lia. cbn [bind].
  rewrite (slice_all (nth v (sms t) [])) by (symmetry; apply M2; auto). cbn [bind].
  destruct (srow_drow t) as [D1 D2].
  rewrite (rd_ok (srow t) v ([] : bytes)) by lia. cbn [bind].
  rewrite (slice_all (nth v (srow t) [])) by (symmetry; apply D2; auto). reflexivity.
Qed.

Lemma sign_picnic3_ok fuel : sign_picnic3 E P fuel sk pub pt msg =
  if eqb_bytes senc (firstn sB pub)
  then CL <- expandChallengeHash E P fuel shash ;; Ok (Some (ssig (fst CL) (snd CL)))
  else Ok None.
Proof.
  pose proof (sB_4W P HP3) as H4. fold sB W in H4.
  unfold sign_picnic3, computeSaltAndRootSeed. fold T sl sz sB n.
  rewrite !slice0_ok by lia. cbn [bind]. fold ssr. rewrite slice0_ok by (rewrite ssr_len; lia). cbn [bind]. fold ssalt.
  rewrite slice_ok by (rewrite ssr_len; lia). cbn [bind]. fold sroot.
  rewrite (proj1 siseeds_ok). cbn [bind].
  rewrite (mapM_seq_pure T 0 _ sround) by (intros t Ht; apply preprocess_ok; lia). cbn [bind].
  rewrite (mapM_aux_ok (aux_buf P) _ srow).
  2:{ apply aux_buf_zeros. }
  2:{ intros t a Ht Ha. rewrite (rd_ok _ t (sround 0)) by (rewrite map_length, seq_length; lia). cbn [bind].
      rewrite nth_map_seq by lia. cbn [sround pr_seeds pr_tapes].
      apply (commit_row_ok E P HP3); auto.
      - apply sseeds_ok. lia.
      - rewrite ssalt_len. auto.
      - apply stl_rows. }
  cbn [bind]. rewrite onlines_ok. cbn [bind].
  destruct (eqb_bytes senc (firstn sB pub)) eqn:He.
  2:{ destruct (seq 0 T) eqn:Hq; [|reflexivity]. exfalso. apply (f_equal (@length nat)) in Hq. rewrite seq_length in Hq. cbn in Hq. lia. }
  rewrite (mapM_seq_pure T 0 _ sch).
  2:{ intros t Ht. rewrite (rd_ok _ t ([] : list bytes)) by (rewrite map_length, seq_length; lia). cbn [bind].
      rewrite nth_map_seq by lia. apply commit_h_ok; auto. apply srow_drow. }
  cbn [bind]. rewrite (mapM_seq_pure T 0 _ scv).
  2:{ intros t Ht. rewrite (rd_ok _ t (([] : bytes), mkMsgs [] 0 None)) by (rewrite map_length, seq_length; lia). cbn [bind].
      rewrite nth_map_seq by lia. apply (commit_v_ok E P HP3).
      - destruct (smk_spec t) as (K1 & _). fold sB. lia.
      - exact (omsgs_rows E P _ _ _ _ _). }
  cbn [bind]. fold dg. destruct smerkle_ok as (t0 & -> & Hb & Hf). cbn [bind]. rewrite Hb. cbn [bind].
  pose proof (proj1 Hf) as Hms. rewrite (rd_node T DT dg) by (auto; unfold nN; lia). cbn [bind].
  rewrite (HCP_hash_ok E P pub pt msg HP3).
  2:{ rewrite map_length, seq_length. auto. }
  2:{ intros t Ht. rewrite nth_map_seq by auto. unfold sch, ch_of. rewrite hash_length; auto. }
  2:{ unfold nd. rewrite (sh_nl _ _ _ _ Hms); auto. unfold nN. lia. }
  2:{ rewrite ssalt_len. auto. }
  2:{ auto. }
  2:{ fold sB. lia. }
  cbn [bind]. fold shash.
  pose proof (expandChallengeHash_ok E P HP3 HE fuel shash ltac:(rewrite shash_len; auto)) as Hx.
  destruct (expandChallengeHash E P fuel shash) as [[C L]| | |]; cbn [okf] in Hx; try contradiction; [|reflexivity].
  cbn [bind fst snd] in *. pose proof Hx as (X1 & X2 & X3 & X4 & X5).
  rewrite getMissingLeavesList_ok by auto. cbn [bind].
  assert (Ho : Forall (fun l => l < T) (others P C)).
  { apply Forall_forall. intros x Hxx. apply others_In in Hxx. apply Hxx. }
  destruct (mrvs_ok T HT (others P C) dg smerkle Ho Hms) as [Hr (m & Hm)].
  rewrite (openMerkleTree_ok P T DT (others P C) smerkle m _ Hms Hr Hm). cbn [bind].
  pose proof (w3_sd P HP3) as Hsz. fold sz in Hsz. destruct siseeds_ok as [_ His].
  rewrite (sopen_ok P HP3 T HT siseeds C); auto.
  2:{ assert (T * sz <= 1024 * 32) by (apply Nat.mul_le_mono; lia). lia. }
  cbn [reveal_or_UB bind].
  rewrite (mapM_seq_pure T 0 _ (sproof C L)).
  - reflexivity.
  - intros t Ht. rewrite (rd_ok _ t (sround 0)) by (rewrite map_length, seq_length; lia). cbn [bind].
    rewrite (rd_ok _ t (([] : bytes), mkMsgs [] 0 None)) by (rewrite map_length, seq_length; lia). cbn [bind].
    rewrite (rd_ok _ t ([] : list bytes)) by (rewrite map_length, seq_length; lia). cbn [bind].
    rewrite !nth_map_seq by lia. apply prove_ok; auto. lia.
Qed.

End S.
End G.
