(** Picnic3 signatures verify. *)

From Coq Require Import List NArith Arith Bool Lia ZifyBool ZifyNat ZifyN.
From Verif Require Import Base Params Env Spec LowMC Tree Picnic3 BaseFacts ParamFacts LowMCFacts UtilFacts
  ZkbChal TreeShape TreeSeed TreeReveal TreeOpen TreeMissing TreeMerkle TreeVerify TreeSpec TreeTop
  P3Tape P3Aux P3Online P3Mask P3Chal P3Round P3Seeds P3Verify P3Sign.
Import ListNotations.

Local Opaque pack.

Lemma eqb_refl_bytes b : eqb_bytes b b = true.
Proof. apply eqb_bytes_eq. reflexivity. Qed.

Section K.
Variable E : env.
Variable P : paramset.

Let n := stateSizeBits P.
Let R := numRounds P.
Let W := stateSizeWords P.
Let sB := stateSizeBytes P.
Let aB := andSizeBytes P.
Let tS := p3_tapeSize P.
Let sz := seedSizeBytes P.
Let sl := saltSizeBytes P.
Let dg := digestSizeBytes P.
Let T := numMPCRounds P.
Let u := numOpenedRounds P.
Let DT := Nat.log2_up T.

Variables (sk pub pt msg : bytes).
Hypothesis HP3 : wfP3 P.
Hypothesis HE : env_bytes_ok E.
Hypothesis HC : constants_ok E P.
Hypothesis HI : inverses_ok E P.
Hypothesis Hsk : 4 * W <= length sk.
Hypothesis Hskb : bytes_ok sk.
Hypothesis Hpt : 4 * W <= length pt.
Hypothesis Hptb : bytes_ok pt.
Hypothesis Hpub : sB <= length pub.

Let HT : 2 <= T <= 1024 := T_rng P HP3.

Variables (C L : list nat).
Hypothesis Hw : chal_wf P C L.
Let sig := ssig E P sk pub pt msg C L.

Local Notation ssalt := (ssalt E P sk pub pt msg).
Local Notation sroot := (sroot E P sk pub pt msg).
Local Notation siseeds := (siseeds E P sk pub pt msg).
Local Notation sseeds := (sseeds E P sk pub pt msg).
Local Notation stl0 := (stl0 E P sk pub pt msg).
Local Notation stl := (stl E P sk pub pt msg).
Local Notation smk := (smk E P sk pub pt msg).
Local Notation sms := (sms E P sk pub pt msg).
Local Notation srow := (srow E P sk pub pt msg).
Local Notation sch := (sch E P sk pub pt msg).
Local Notation scv := (scv E P sk pub pt msg).
Local Notation smerkle := (smerkle E P sk pub pt msg).
Local Notation shash := (shash E P sk pub pt msg).

Let salt_eq : length ssalt = sl := ssalt_len E P sk pub pt msg HP3 HE Hsk Hpt Hpub.

Lemma CL : Forall (fun l => l < T) C.
Proof. apply Hw. Qed.

Lemma C_nil : C <> [].
Proof. destruct Hw as (_ & H & _). intros ->. pose proof (w3_u P HP3). cbn in H. lia. Qed.

Lemma plt t : In t C -> party C L t < 16.
Proof. intros Ht. apply (unopened_party_ok P C L t Hw Ht). Qed.

Lemma pf_sig t : t < T -> In t C -> pf sig t = mkProof2 (sopen P 16 (sseeds t) [party C L t])
   (if party C L t =? 15 then zeros aB else aux_of P (stl t))
   (nth (party C L t) (srow t) []) (firstn sB (smk t)) (nth (party C L t) (sms t) []).
Proof.
  intros Ht Hin. unfold pf. cbn [sig ssig g_proofs]. rewrite nth_map_seq by auto. unfold sproof.
  assert (Hc : contains C t = true) by (apply contains_In; auto). rewrite Hc. reflexivity.
Qed.

Lemma ssig_wf : sig3_wf P sig.
Proof.
  assert (Hlt : forall t, In t C -> t < T) by (apply Forall_forall, CL).
  repeat split.
  - exact salt_eq.
  - apply (shash_len E P sk pub pt msg HE).
  - apply Hw.
  - apply Hw.
  - apply Hw.
  - apply Hw.
  - apply Hw.
  - cbn [sig ssig g_iSeedInfo g_challengeC]. apply (sopen_len P T HT siseeds C CL).
    apply (siseeds_ok E P sk pub pt msg HP3 HE Hsk Hpt Hpub).
  - cbn [sig ssig g_proofs]. rewrite map_length, seq_length. reflexivity.
  - intros t Hin. specialize (Hlt t Hin). change (g_challengeC sig) with C in Hin. exists (pf sig t). split.
    + unfold pf. cbn [sig ssig g_proofs]. rewrite nth_map_seq by auto. unfold sproof.
      assert (Hc : contains C t = true) by (apply contains_In; auto). rewrite Hc. reflexivity.
    + rewrite pf_sig by auto. pose proof (plt t Hin) as Hp. set (v := party C L t) in *.
      destruct (smk_spec E P sk pub pt msg HP3 Hsk Hpt Hpub t) as (K1 & K2 & _).
      pose proof (sB_4W P HP3) as H4. fold sB W in H4, K1.
      pose proof (omsgs_rows E P (stl t) None (zero_msgs P) (bit (smk t)) (bit pt)) as [M1 M2]. specialize (M2 v Hp).
      repeat split; cbn [q_seedInfo q_aux q_C q_input q_msgs].
      * rewrite (sopen_len P 16 ltac:(lia)); [rewrite rvs16 by auto; reflexivity|constructor; auto|].
        apply (sseeds_ok E P sk pub pt msg HP3 HE Hsk Hpt Hpub t Hlt).
      * destruct (v =? 15); [apply length_zeros|]. apply (aux_of_spec P HP3).
      * destruct (srow_drow E P sk pub pt msg HE t) as [D1 D2]. apply D2. auto.
      * rewrite firstn_length. fold sB. lia.
      * apply M2.
      * apply Forall_firstn. auto.
      * apply M2.
Qed.

(** The seeds. *)
Lemma vseeds_closed t : t < T -> ~ In t C -> vseeds E P sig t = sseeds t.
Proof.
  intros Ht Hn. unfold vseeds. change (g_challengeC sig) with C. change (g_salt sig) with ssalt.
  replace (contains C t) with false by (symmetry; apply contains_false; auto).
  unfold P3Sign.sseeds. f_equal. unfold viseeds. cbn [sig ssig g_challengeC g_iSeedInfo g_salt].
  unfold P3Sign.siseeds. apply (srec_gen E P HP3 HE T HT sroot ssalt 0 C CL C_nil); auto.
  - rewrite sroot_len by auto. auto.
  - fold sl. lia.
Qed.

Lemma vseeds_open t i : t < T -> In t C -> i < 16 -> i <> party C L t ->
  leaf16 (vseeds E P sig t) i = leaf16 (sseeds t) i.
Proof.
  intros Ht Hin Hi Hne. unfold vseeds, vparty. cbn [sig ssig g_challengeC g_challengeP g_salt]. fold sig.
  replace (contains C t) with true by (symmetry; apply contains_In; auto).
  rewrite pf_sig by auto. cbn [q_seedInfo]. unfold leaf16.
  unfold P3Sign.sseeds. apply (srec_gen E P HP3 HE 16 ltac:(lia) _ ssalt t [party C L t]); auto.
  - constructor; auto. apply plt; auto.
  - discriminate.
  - rewrite (iseed_len E P sk pub pt msg HP3 HE Hsk Hpt Hpub) by auto. auto.
  - fold sl. lia.
  - intros [H|[]]. auto.
Qed.

(** The commitments. *)
Lemma vrow_sig t : t < T -> vrow E P sig t = srow t.
Proof.
  intros Ht. unfold vrow, vtapes, vtapes0, vparty. change (g_challengeC sig) with C. change (g_challengeP sig) with L.
  change (g_salt sig) with ssalt. destruct (contains C t) eqn:Ec.
  - apply contains_In in Ec. rewrite pf_sig by auto. pose proof (plt t Ec) as Hp. cbn [q_aux q_C].
    unfold P3Sign.srow, row_full, row_open. apply map_ext_in. intros i Hi. apply in_seq in Hi.
    destruct (Nat.eqb_spec i (party C L t)) as [->|Hne].
    + rewrite nth_map_seq by auto. apply firstn_all2. unfold com. rewrite hash_length; auto.
    + unfold com. rewrite vseeds_open by (auto; lia). destruct (Nat.eqb_spec i 15) as [Hi15|]; [|reflexivity].
      destruct (Nat.eqb_spec (party C L t) 15) as [Hp15|]; [lia|]. reflexivity.
  - apply contains_false in Ec. rewrite vseeds_closed by auto. reflexivity.
Qed.

(** The online phase. *)
Lemma votl_bits t i p : t < T -> In t C -> i < 16 -> i <> party C L t -> p < 2 * n * R ->
  tbit (votl E P sig t) i p = tbit (stl t) i p.
Proof.
  intros Ht Hin Hi Hne Hpos. pose proof (plt t Hin) as Hp. pose proof (n_pos P HP3) as Hn. fold n in Hn.
  unfold votl, vparty. change (g_challengeC sig) with C. change (g_challengeP sig) with L.
  rewrite pf_sig by auto. cbn [q_aux]. set (v := party C L t) in *.
  set (V := vtapes0 E P sig t). assert (HV : rows 16 tS V) by (exact (tapes_of_rows E P HE _ _ _)).
  assert (HVb : forall i p, i < 16 -> i <> v -> tbit V i p = tbit (stl0 t) i p).
  { intros i' p' Hi' Hne'. unfold V, vtapes0, P3Sign.stl0. change (g_salt sig) with ssalt.
    apply tapes_of_bit; auto. apply vseeds_open; auto. }
  pose proof (stl0_rows E P sk pub pt msg HE t) as HS.
  destruct (aux_tapes_spec E P HP3 (stl0 t) HS) as (A0 & A1 & A2 & A3 & A4). fold (stl t) in A0, A1, A2, A3, A4.
  change (aux_tapes E P (stl0 t)) with (stl t) in *.
  assert (Hset : tbit (list_set (if v =? 15 then V else with_aux P V (if v =? 15 then zeros aB else aux_of P (stl t))) v (zeros tS)) i p
                 = tbit (if v =? 15 then V else with_aux P V (if v =? 15 then zeros aB else aux_of P (stl t))) i p).
  { unfold tbit. rewrite nth_list_set.
    - replace (i =? v) with false by lia. reflexivity.
    - destruct (v =? 15); [rewrite (proj1 HV); auto|].
      rewrite (proj1 (proj1 (with_aux_spec P HP3 V (aux_of P (stl t)) HV))). auto. }
  fold tS. rewrite Hset. destruct (Nat.eqb_spec v 15) as [Hv|Hv].
  - rewrite HVb by auto. symmetry. apply A1. lia.
  - destruct (with_aux_spec P HP3 V (aux_of P (stl t)) HV) as (B0 & B1 & B2 & B3 & B4).
    destruct (Nat.eq_dec i 15) as [->|Hi15].
    + set (j := p / (2 * n)). set (q := p mod (2 * n)).
      assert (Hp' : p = 2 * n * j + q) by (unfold j, q; apply Nat.div_mod; clear - Hn; lia).
      assert (Hq : q < 2 * n) by (unfold q; apply Nat.mod_upper_bound; clear - Hn; lia).
      assert (Hj : j < R) by (unfold j; apply Nat.div_lt_upper_bound; clear - Hn Hpos; [lia|nia]).
      destruct (Nat.lt_ge_cases q n) as [Hqn|Hqn].
      * rewrite Hp'. unfold n in *. rewrite B2, A2 by auto. apply HVb; auto.
      * replace p with (2 * n * j + n + (q - n)) by (clear - Hp' Hqn; lia).
        assert (Hqq : q - n < n) by (clear - Hq Hqn; lia).
        unfold n in *. rewrite B4 by auto. apply (aux_of_spec P HP3); auto.
    + rewrite B1, A1 by lia. apply HVb; auto.
Qed.

Lemma vview_sig t : t < T -> In t C ->
  vms E P sig pt t = sms t /\
  oout E P (votl E P sig t) (Some (vparty sig t)) (vml P sig t) (bit (q_input (pf sig t))) (bit pt) =
  oout E P (stl t) None (zero_msgs P) (bit (smk t)) (bit pt).
Proof.
  intros Ht Hin. pose proof (plt t Hin) as Hp.
  assert (Hkey : veq n (bit (firstn sB (smk t))) (bit (smk t))).
  { intros i Hi. apply bit_firstn. pose proof (n_sB P HP3). fold n sB in H. lia. }
  destruct (omsgs_verify E P HP3 (stl t) (votl E P sig t) (party C L t) (bit (smk t)) (bit (firstn sB (smk t))) (bit pt) Hp)
    as [H1 H2]; auto.
  - exact (stl_rows E P sk pub pt msg HP3 HE t).
  - exact (votl_rows E P sig HP3 HE ssig_wf t Hin).
  - intros i p Hi Hne Hpp. apply votl_bits; auto.
  - assert (Hml : vml P sig t = list_set (zero_msgs P) (party C L t) (nth (party C L t) (sms t) [])).
    { unfold vml, vparty. rewrite pf_sig by auto. reflexivity. }
    assert (Hq : q_input (pf sig t) = firstn sB (smk t)) by (rewrite pf_sig by auto; reflexivity).
    unfold vms. rewrite Hml, Hq. split; [exact H1|exact H2].
Qed.

Lemma vcv_sig t : t < T -> In t C -> vcv E P sig pt t = scv t.
Proof.
  intros Ht Hin. unfold vcv, P3Sign.scv. rewrite (proj1 (vview_sig t Ht Hin)). rewrite pf_sig by auto. cbn [q_input].
  unfold cv_of. fold sB. rewrite firstn_firstn, Nat.min_id. reflexivity.
Qed.

Lemma vCv_sig : vCv E P sig pt = present_leaves T (others P C) (map scv (seq 0 T)).
Proof.
  unfold vCv, present_leaves. change (g_challengeC sig) with C. apply map_ext_in. intros t Hi. apply in_seq in Hi.
  change (existsb (Nat.eqb t) (others P C)) with (contains (others P C) t).
  destruct (contains C t) eqn:Ec.
  - apply contains_In in Ec. replace (contains (others P C) t) with false.
    + rewrite vcv_sig by (auto; lia). rewrite nth_map_seq by lia. reflexivity.
    + symmetry. apply contains_false. intros H. apply others_In in H. apply H. auto.
  - apply contains_false in Ec. replace (contains (others P C) t) with true; [reflexivity|].
    symmetry. apply contains_In, others_In. split; [lia|auto].
Qed.

Lemma vmerkle_sig : exists t, vmerkle E P sig pt = Some t /\ nd t 0 = nd smerkle 0.
Proof.
  assert (Hts : tree_size_ok T dg).
  { pose proof (w3_dg P HP3) as Hd. fold dg in Hd. pose proof (D_small T HT) as HD.
    split; [lia|]. split; [exact HD|]. assert (T * dg <= 1024 * 64) by (apply Nat.mul_le_mono; lia).
    unfold INT_MAX. lia. }
  pose proof (others_ok P sig pub pt HP3 ssig_wf Hpt Hpub) as [Ho1 Ho2]. change (g_challengeC sig) with C in Ho1, Ho2.
  pose proof (w3_dg P HP3) as Hd.
  destruct (C20_pf E P T HE ltac:(lia) Hts (map scv (seq 0 T)) ssalt (others P C)) as (t0 & Tr & out & t1 & t' & H1 & H2 & H3 & _ & H4 & H5 & H6); auto.
  - fold sl. lia.
  - rewrite map_length, seq_length. auto.
  - intros x Hx. apply in_map_iff in Hx. destruct Hx as (t & <- & _). rewrite scv_len by auto. auto.
  - destruct (smerkle_ok E P sk pub pt msg HP3 HE Hsk Hpt Hpub) as (t0' & G1 & G2 & G3). fold T dg in G1, G2, G3.
    unfold dg in *. rewrite H1 in G1. injection G1 as <-. rewrite H2 in G2. injection G2 as ->.
    exists t'. split; [|exact H6].
    unfold vmerkle. change (g_challengeC sig) with C. change (g_salt sig) with ssalt.
    assert (Hcv : g_cvInfo sig = out).
    { cbn [sig ssig g_cvInfo]. pose proof (proj1 G3) as Hms.
      destruct (mrvs_ok T HT (others P C) _ smerkle Ho1 Hms) as [Hr (m & Hm)].
      rewrite (openMerkleTree_ok P T (Nat.log2_up T) (others P C) smerkle m _ Hms Hr Hm) in H3. injection H3 as <-. reflexivity. }
    rewrite Hcv, vCv_sig. fold T. rewrite H1. cbn [bind]. rewrite H4. cbn [bind]. rewrite H5. reflexivity.
Qed.

Lemma verify_ssig : senc E P sk pt = firstn sB pub -> verify_picnic3 E P sig pub pt msg = Ok true.
Proof.
  intros Henc. rewrite (verify_picnic3_ok E P sig pub pt msg HP3 HE HC HI ssig_wf) by auto. f_equal.
  unfold vresult. destruct vmerkle_sig as (t & -> & Hr). rewrite Hr.
  assert (Hs : vsim E P sig pub pt = true).
  { unfold vsim. apply forallb_forall. intros t0 Hi. apply in_seq in Hi. change (g_challengeC sig) with C.
    destruct (contains C t0) eqn:Ec; [|reflexivity]. cbn [negb orb]. apply contains_In in Ec.
    unfold vout. rewrite (proj2 (vview_sig t0 ltac:(lia) Ec)).
    rewrite (sout_enc E P sk pub pt msg HP3 HE HI Hsk Hpt Hpub t0). apply eqb_bytes_eq. exact Henc. }
  rewrite Hs. cbn [andb]. cbn [sig ssig g_challengeHash g_salt]. unfold P3Sign.shash.
  replace (map (vch E P sig) (seq 0 (numMPCRounds P))) with (map sch (seq 0 (numMPCRounds P))).
  - apply eqb_refl_bytes.
  - apply map_ext_in. intros t0 Hi. apply in_seq in Hi. unfold vch, P3Sign.sch. rewrite vrow_sig by (unfold T; lia). reflexivity.
Qed.

End K.
