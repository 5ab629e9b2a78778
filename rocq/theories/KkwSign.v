(** Signing with a Picnic3 parameter set computes kkw_sign. *)

From Coq Require Import List NArith Arith Bool Btauto Lia ZifyBool ZifyNat ZifyN.
From Verif Require Import Base Params Env Spec LowMC Tree Picnic3 Api ApiSpec SigSpec BaseFacts ParamFacts LowMCFacts
  LowMCInj UtilFacts ZkbChal TreeShape TreeSeed TreeReveal TreeOpen TreeMissing TreeMerkle TreeVerify TreeSpec TreeTop
  P3Tape P3Aux P3Online P3Mask P3Chal P3Round P3Seeds P3Verify P3Sign P3Complete P3Codec P3Ext P3Api
  ZkbppSpec ZkbppProofs KkwSpec KkwTree KkwNodes KkwChal KkwOnline.
Import ListNotations.

Local Opaque pack.

Lemma H16 : 2 <= 16 <= 1024.
Proof. lia. Qed.

(** *** Hashes *)
Section H.
Variable E : env.
Variable P : paramset.
Variable sp : sparams.
Hypothesis HP3 : wfP3 P.
Hypothesis CF : conforms P sp.
Hypothesis HE : env_bytes_ok E.
Let sB := stateSizeBytes P.
Let aB := andSizeBytes P.
Let sz := seedSizeBytes P.
Let dg := digestSizeBytes P.
Let T := numMPCRounds P.

Lemma Hp_eq x chunks : x = concat chunks -> Hp E sp x = hash E P HASH_PREFIX_NONE chunks dg.
Proof.
  intros ->. rewrite (hash_eq E P sp CF). unfold Hp, dg. rewrite (cf_H P sp CF). reflexivity.
Qed.

Lemma flat_map_firstn (f : nat -> bytes) (l : list bytes) k len :
  length l = k -> (forall i, i < k -> f i = nth i l [] /\ length (nth i l []) = len) ->
  flat_map f (seq 0 k) = concat (map (firstn len) l).
Proof.
  intros Hl H. rewrite flat_map_concat_map. f_equal. apply list_ext with ([] : bytes).
  - rewrite !map_length, seq_length. auto.
  - intros i Hi. rewrite map_length, seq_length in Hi. rewrite nth_map_seq by auto.
    rewrite nth_indep with (d' := firstn len ([] : bytes)) by (rewrite map_length; rewrite <- Hl in Hi; exact Hi).
    rewrite map_nth. destruct (H i Hi) as [-> H2]. symmetry. apply firstn_all2. lia.
Qed.

Lemma ktape_eq (lf : nat -> bytes) salt t j : length salt = 32 -> length (lf j) = sz -> j < 16 ->
  forall p, bit (ktape E sp (lf j) salt t j) p = tbit (tapes_of E P salt t lf) j p.
Proof.
  intros Hs Hl Hj p. unfold tbit, tapes_of. rewrite nth_map_seq by auto. f_equal.
  rewrite (hash_eq E P sp CF). unfold ktape, p3_tapeSize. rewrite (cf_aB P sp CF), !le16_eq.
  cbn [prefix_bytes HASH_PREFIX_NONE concat app]. rewrite app_nil_r.
  rewrite (cf_salt P sp CF), !firstn_all2 by (fold sz; lia). reflexivity.
Qed.

Lemma commit_seed_eq (lf : nat -> bytes) aux salt t j : length salt = 32 -> length (lf j) = sz ->
  j < 16 -> (j = 15 -> length aux = aB) ->
  commit_seed E sp (lf j) aux salt t j = com E P salt t lf aux j.
Proof.
  intros Hs Hl Hj Ha. unfold commit_seed, com. rewrite (sp_N_eq P sp HP3 CF). change (16 - 1) with 15.
  apply Hp_eq. cbn [concat]. rewrite app_nil_r, !le16_eq, (cf_salt P sp CF).
  rewrite !(firstn_all2 (lf j)), !(firstn_all2 salt) by (fold sz; lia).
  destruct (Nat.eqb_spec j 15) as [He|]; [|reflexivity]. rewrite firstn_all2 by (fold aB; rewrite Ha; auto). reflexivity.
Qed.

Lemma commit_row_eq C (row : list bytes) : length row = 16 ->
  (forall j, j < 16 -> C j = nth j row [] /\ length (nth j row []) = dg) ->
  KkwSpec.commit_row E sp C = ch_of E P row.
Proof.
  intros Hl H. unfold KkwSpec.commit_row, ch_of. rewrite (sp_N_eq P sp HP3 CF). fold dg.
  apply Hp_eq. apply flat_map_firstn; auto.
Qed.

Lemma commit_view_eq key input ms (mf : nat -> bytes) : key = firstn sB input -> length ms = 16 ->
  (forall j, j < 16 -> mf j = nth j ms [] /\ length (nth j ms []) = aB) ->
  commit_view E sp key mf = cv_of E P input ms.
Proof.
  intros -> Hl H. unfold commit_view, cv_of. rewrite (sp_N_eq P sp HP3 CF). fold dg sB aB.
  apply Hp_eq. cbn [concat]. f_equal. apply flat_map_firstn; auto.
Qed.

Lemma challenge_hash_eq (Ch : nat -> bytes) (L : list bytes) root salt pub pt M :
  length L = T -> (forall t, t < T -> Ch t = nth t L [] /\ length (nth t L []) = dg) ->
  length root = dg -> length salt = 32 ->
  challenge_hash E sp Ch root salt (block P pub ++ block P pt) M = hcp E P pub pt M L root salt.
Proof.
  intros Hl H Hr Hs. unfold challenge_hash, hcp. rewrite <- (cf_T P sp CF). fold T dg.
  apply Hp_eq. rewrite concat_app. cbn [concat]. rewrite app_nil_r.
  rewrite (flat_map_firstn Ch L T dg Hl H). f_equal.
  rewrite (firstn_all2 root), (cf_salt P sp CF), (firstn_all2 salt) by lia.
  unfold block. rewrite <- !app_assoc. reflexivity.
Qed.
End H.

Section G.
Variable E : env.
Variable P : paramset.
Variable sp : sparams.
Hypothesis HP3 : wfP3 P.
Hypothesis CF : conforms P sp.
Hypothesis HE : env_bytes_ok E.

Let n := stateSizeBits P.
Let R := numRounds P.
Let W := stateSizeWords P.
Let sB := stateSizeBytes P.
Let aB := andSizeBytes P.
Let tS := p3_tapeSize P.
Let sz := seedSizeBytes P.
Let sl := saltSizeBytes P.
Let dg := digestSizeBytes P.
Let T := numMPCRounds P.
Let DT := Nat.log2_up T.
Let L := lowmc_of E P.
Let Ki := spec_K0inv E P.
Let Li := spec_Linv E P.

Variables (sk pub pt msg : bytes).
Hypothesis Hsk : 4 * W <= length sk.
Hypothesis Hpt : 4 * W <= length pt.
Hypothesis Hpub : sB <= length pub.
Hypothesis Hpad : padding_zero P sk.

Let skb := block P sk.
Let Cb := block P pub.
Let pb := block P pt.

Let HT : 2 <= T <= 1024 := T_rng P HP3.

Notation ssalt' := (ssalt E P sk pub pt msg).

Lemma krandom_eq : krandom E sp skb Cb pb msg = ssr E P sk pub pt msg.
Proof.
  unfold krandom, ssr. rewrite (hash_eq E P sp CF). cbn [concat prefix_bytes HASH_PREFIX_NONE app].
  rewrite app_nil_r. rewrite (cf_S P sp CF), (cf_salt P sp CF), (cf_n P sp CF), le16_eq.
  unfold skb, Cb, pb, block. rewrite <- !app_assoc. reflexivity.
Qed.

Lemma ksalt_eq : ksalt E sp skb Cb pb msg = ssalt'.
Proof. unfold ksalt, ssalt, sub_bytes. rewrite krandom_eq, (cf_salt P sp CF). reflexivity. Qed.

Lemma kroot_eq : kroot E sp skb Cb pb msg = sroot E P sk pub pt msg.
Proof.
  unfold kroot, sroot, sub_bytes. rewrite krandom_eq, (cf_salt P sp CF), (cf_S P sp CF). reflexivity.
Qed.

Lemma ssalt32 : length ssalt' = 32.
Proof. rewrite (ssalt_len E P sk pub pt msg); auto. apply (cf_salt P sp CF). Qed.

Lemma sroot_sz : length (sroot E P sk pub pt msg) = sz.
Proof. apply sroot_len; auto. Qed.

Lemma iSeed_eq t : t < T -> iSeed E sp skb Cb pb msg t = nd (siseeds E P sk pub pt msg) (nF DT + t).
Proof.
  intros Ht. unfold iSeed. rewrite ksalt_eq, kroot_eq. rewrite <- (cf_T P sp CF). fold T.
  apply (seed_leaf_eq E P sp); auto using ssalt32, sroot_sz.
Qed.

Lemma kseed_eq t j : t < T -> j < 16 ->
  kseed E sp skb Cb pb msg t j = leaf16 (sseeds E P sk pub pt msg t) j.
Proof.
  intros Ht Hj. unfold kseed. rewrite ksalt_eq, iSeed_eq by auto. rewrite (sp_N_eq P sp HP3 CF).
  rewrite (seed_leaf_eq E P sp HP3 CF HE 16 H16 _ ssalt32); auto. apply iseed_len; auto.
Qed.

Lemma leaf_sz t j : t < T -> j < 16 -> length (leaf16 (sseeds E P sk pub pt msg t) j) = sz.
Proof.
  intros Ht Hj. destruct (sseeds_ok E P sk pub pt msg HP3 HE Hsk Hpt Hpub t Ht) as [_ Hs].
  unfold leaf16, nd. apply (sh_nl _ _ _ _ Hs). unfold nN, nF. cbn. lia.
Qed.

Lemma ktapes0_eq t : t < T -> forall j p, j < 16 ->
  ktapes0 E sp skb Cb pb msg t j p = tbit (stl0 E P sk pub pt msg t) j p.
Proof.
  intros Ht j p Hj. unfold ktapes0, stl0. rewrite ksalt_eq, kseed_eq by auto.
  apply (ktape_eq E P sp CF (leaf16 (sseeds E P sk pub pt msg t))); auto using ssalt32. apply leaf_sz; auto.
Qed.

Lemma kaux_eq t : t < T -> kaux E sp L Ki Li skb Cb pb msg t = aux_of P (stl E P sk pub pt msg t).
Proof.
  intros Ht. unfold kaux, stl. apply (aux_bytes_eq E P sp HP3 CF); [apply stl0_rows; auto|apply ktapes0_eq; auto].
Qed.

Lemma ktapes_eq t : t < T -> forall j p, j < 16 ->
  ktapes E sp L Ki Li skb Cb pb msg t j p = tbit (stl E P sk pub pt msg t) j p.
Proof.
  intros Ht j p Hj. unfold ktapes, stl.
  apply (set_aux_tapes E P sp HP3 CF); [apply stl0_rows; auto|apply ktapes0_eq; auto|auto].
Qed.

Lemma n_le8 : n <= 8 * sB.
Proof. pose proof (n_sB P HP3). unfold n, sB. lia. Qed.

Lemma kkey_eq t : t < T -> kkey E sp Ki skb Cb pb msg t = firstn sB (smk E P sk pub pt msg t).
Proof.
  intros Ht. unfold kkey. pose proof n_le8 as Hn8.
  destruct (smk_spec E P sk pub pt msg HP3 Hsk Hpt Hpub t) as (K1 & K2 & K3). fold W in K1, K3.
  pose proof (sB_4W P HP3) as H4. fold sB W in H4.
  destruct (aux_key_spec E P sk pub pt HP3 Hsk Hpt Hpub (stl0 E P sk pub pt msg t)) as (_ & _ & A3). fold n in A3.
  destruct (bytes_of_spec (sp_n sp) (vxor (key_mask sp Ki (ktapes0 E sp skb Cb pb msg t)) (bit skb))) as (B1 & B2 & B3).
  assert (Ho : octets (sp_n sp) = sB) by (symmetry; apply (cf_nB P sp CF)).
  apply bits_ext; auto.
  - rewrite B1, firstn_length. lia.
  - apply Forall_firstn; auto.
  - intros i Hi. rewrite B1, Ho in Hi. rewrite B3, bit_firstn by auto. rewrite K3, A3.
    replace (i <? 32 * W) with true by lia. rewrite (sp_n_eq P sp CF). fold n.
    unfold vxor. destruct (Nat.ltb_spec i n) as [Hin|Hin].
    + rewrite (key_mask_eq E P sp HP3 CF _ (stl0 E P sk pub pt msg t)) by (apply ktapes0_eq; auto).
      f_equal. unfold skb, block. apply bit_firstn. fold sB. lia.
    + rewrite (Hpad i) by (fold n sB; lia). reflexivity.
Qed.

Lemma key_veq t : t < T -> veq n (bit (kkey E sp Ki skb Cb pb msg t)) (bit (smk E P sk pub pt msg t)).
Proof.
  intros Ht i Hi. rewrite kkey_eq by auto. apply bit_firstn. pose proof n_le8. lia.
Qed.

Lemma pt_veq : veq n (bit pb) (bit pt).
Proof. intros i Hi. unfold pb, block. apply bit_firstn. pose proof n_le8. fold sB. lia. Qed.

Lemma kmsgs_eq t j : t < T -> j < 16 ->
  kmsgs E sp L Ki Li skb Cb pb msg t j = nth j (sms E P sk pub pt msg t) [].
Proof.
  intros Ht Hj. unfold kmsgs, sms.
  apply (message_bytes_eq E P sp HP3 CF); auto.
  - apply key_veq; auto.
  - apply pt_veq.
  - intros j' p Hj' _. apply ktapes_eq; auto.
  - intros q Hq. unfold tbit, zero_msgs. rewrite nth_repeat_lt by auto. apply bit_zeros.
Qed.

Lemma sms_len t j : j < 16 -> length (nth j (sms E P sk pub pt msg t) []) = aB.
Proof.
  intros Hj. destruct (omsgs_rows E P (stl E P sk pub pt msg t) None (zero_msgs P) (bit (smk E P sk pub pt msg t)) (bit pt)) as [_ M2].
  apply M2; auto.
Qed.

Lemma kC_eq t j : t < T -> j < 16 ->
  kC E sp L Ki Li skb Cb pb msg t j = nth j (srow E P sk pub pt msg t) [].
Proof.
  intros Ht Hj. unfold kC, srow, row_full. rewrite nth_map_seq by auto.
  rewrite ksalt_eq, kseed_eq, kaux_eq by auto.
  apply (commit_seed_eq E P sp HP3 CF); auto using ssalt32, leaf_sz.
  intros _. apply aux_of_spec; auto.
Qed.

Lemma kCv_eq t : t < T -> kCv E sp L Ki Li skb Cb pb msg t = scv E P sk pub pt msg t.
Proof.
  intros Ht. unfold kCv, scv. apply (commit_view_eq E P sp HP3 CF).
  - apply kkey_eq; auto.
  - unfold sms, omsgs. rewrite map_length, seq_length. reflexivity.
  - intros j Hj. split; [apply kmsgs_eq; auto|apply sms_len; auto].
Qed.

Lemma smerkle_full : full_merkle E P T DT ssalt' (map (scv E P sk pub pt msg) (seq 0 T)) (smerkle E P sk pub pt msg).
Proof. destruct (smerkle_ok E P sk pub pt msg HP3 HE Hsk Hpt Hpub) as (t0 & _ & _ & H). exact H. Qed.

Lemma scv_leaves l : l < T ->
  firstn dg (nth l (map (scv E P sk pub pt msg) (seq 0 T)) []) = kCv E sp L Ki Li skb Cb pb msg l.
Proof.
  intros Hl. rewrite nth_map_seq by auto. rewrite kCv_eq by auto. apply firstn_all2.
  rewrite (scv_len E P sk pub pt msg HE). auto.
Qed.

Lemma kh_eq : kh E sp L Ki Li skb Cb pb msg = shash E P sk pub pt msg.
Proof.
  unfold kh, shash. rewrite ksalt_eq. rewrite <- (cf_T P sp CF). fold T.
  rewrite (merkle_root_eq E P sp CF T HT _ ssalt32 _ _ _ smerkle_full scv_leaves).
  apply (challenge_hash_eq E P sp CF).
  - rewrite map_length, seq_length. reflexivity.
  - intros t Ht. rewrite nth_map_seq by auto. split.
    + unfold sch. apply (commit_row_eq E P sp HP3 CF).
      * unfold srow, row_full. rewrite map_length, seq_length. reflexivity.
      * intros j Hj. split; [apply kC_eq; auto|].
        destruct (srow_drow E P sk pub pt msg HE t) as [_ D]. apply D; auto.
    + unfold sch, ch_of. apply hash_length; auto.
  - destruct smerkle_full as (Hs & _). unfold nd. apply (sh_nl _ _ _ _ Hs). unfold nN. pose proof (pow_pos DT). lia.
  - apply ssalt32.
Qed.

Lemma kround_eq C Lp t : chal_wf P C Lp -> t < T ->
  kround_bytes E sp L Ki Li skb Cb pb msg C Lp t = renc C Lp t (sproof E P sk pub pt msg C Lp t).
Proof.
  intros Hw Ht. unfold kround_bytes, renc, sproof. rewrite member_contains.
  destruct (contains C t) eqn:Ec; [|reflexivity]. pose proof Ec as Hin. apply contains_In in Hin.
  destruct (unopened_party_ok P C Lp t Hw Hin) as [_ Hp].
  rewrite (unopened_eq P C Lp t Hw Hin). set (j := party C Lp t) in *. cbv zeta.
  cbn [q_seedInfo q_aux q_input q_msgs q_C]. rewrite (sp_N_eq P sp HP3 CF). change (16 - 1) with 15.
  rewrite ksalt_eq, iSeed_eq, kaux_eq, kkey_eq, kmsgs_eq, kC_eq by auto.
  rewrite (reveal_seeds_eq E P sp HP3 CF HE 16 H16 _ ssalt32); auto.
  - destruct (j =? 15); reflexivity.
  - apply iseed_len; auto.
Qed.

Lemma kkw_sign_eq fuel :
  match kkw_sign E sp L Ki Li skb Cb pb msg fuel with Some r => Ok r | None => NoFuel end =
  (CL <- expandChallengeHash E P fuel (shash E P sk pub pt msg) ;;
   Ok (enc3 P (ssig E P sk pub pt msg (fst CL) (snd CL)))).
Proof.
  unfold kkw_sign. rewrite kh_eq. pose proof (shash_len E P sk pub pt msg HE) as Hl.
  pose proof (expandChallengeHash_ok E P HP3 HE fuel _ (Nat.eq_le_incl _ _ (eq_sym Hl))) as Hw.
  rewrite (challenge_eq E P sp HP3 CF HE) in * by auto.
  destruct (challenge E sp fuel (shash E P sk pub pt msg)) as [[C Lp]|]; cbn [bind]; [|reflexivity].
  cbn [okf fst snd] in *. f_equal. unfold enc3. cbn [ssig g_challengeHash g_salt g_iSeedInfo g_cvInfo g_challengeC g_challengeP g_proofs].
  pose proof Hw as (_ & _ & HC & _).
  rewrite ksalt_eq, kroot_eq. rewrite <- (cf_T P sp CF). fold T. rewrite (not_in_eq P sp CF).
  rewrite (reveal_seeds_eq E P sp HP3 CF HE T HT _ ssalt32) by (auto using sroot_sz).
  rewrite (open_merkle_eq E P sp CF T HT _ ssalt32 _ _ _ _ smerkle_full scv_leaves) by apply others_lt.
  do 4 f_equal. rewrite flat_map_concat_map. f_equal. apply map_ext_in. intros t Hin. apply in_seq in Hin.
  rewrite nth_map_seq by lia. apply kround_eq; auto. lia.
Qed.
End G.

Lemma picnic3_sign_is E p P sp fuel sk msg buf len :
  get_param_set p = Some P -> sk_params sk = p -> is_picnic3 p = true -> table2 p = Some sp ->
  env_bytes_ok E -> constants_ok E P -> inverses_ok E P -> sk_wf sk -> padding_zero P (sk_data sk) ->
  lowmc_relation E P (sk_data sk) (pk_plaintext (sk_pk sk)) (pk_ciphertext (sk_pk sk)) ->
  len <= length buf ->
  picnic_sign E fuel sk msg buf len =
  match kkw_sign E sp (spec_lowmc E P sp) (spec_K0inv E P) (spec_Linv E P)
          (block P (sk_data sk)) (block P (pk_ciphertext (sk_pk sk)))
          (block P (pk_plaintext (sk_pk sk))) msg fuel with
  | None => NoFuel
  | Some sg => if len <? length sg then Ok (false, buf, len)
               else Ok (true, sg ++ skipn (length sg) buf, length sg)
  end.
Proof.
  intros HP Hp H3 Htab HE HC HI Hwf Hpad Hrel Hlen.
  pose proof (get_param_set_wfP3 _ _ HP H3) as HP3.
  destruct (table2_conforms p P HP) as (sp' & Htab' & CF).
  assert (sp' = sp) as -> by congruence.
  rewrite (sign3_eq E P p HP H3 HE HC HI fuel sk msg buf len Hp Hwf Hlen).
  rewrite (proj2 (sign3_rel E P p HP H3 sk Hwf) Hrel).
  rewrite (spec_lowmc_eq E P sp CF).
  destruct Hwf as (Wsk & Wpt & Wpub).
  destruct (block_len P p HP H3 _ Wsk) as [L1 _]. destruct (block_len P p HP H3 _ Wpt) as [L2 _].
  destruct (block_len P p HP H3 _ Wpub) as [_ L3].
  pose proof (kkw_sign_eq E P sp HP3 CF HE (sk_data sk) (pk_ciphertext (sk_pk sk)) (pk_plaintext (sk_pk sk)) msg
                L1 L2 L3 Hpad fuel) as Hk.
  unfold schal, sbytes. destruct (kkw_sign _ _ _ _ _ _ _ _ _ _) as [r|];
    destruct (expandChallengeHash _ _ _ _) as [CL| | |]; cbn [bind] in *; try discriminate; [|reflexivity].
  injection Hk as <-. destruct (len <? length r); reflexivity.
Qed.
