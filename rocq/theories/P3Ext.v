(** What Picnic3 signing and verification depend on. *)

From Coq Require Import List NArith Arith Bool Lia ZifyBool ZifyNat ZifyN.
From Verif Require Import Base Params Env Spec LowMC Tree Picnic3 ApiSpec SigSpec BaseFacts ParamFacts LowMCFacts
  LowMCInj UtilFacts Hint ZkbChal TreeShape TreeSeed TreeReveal TreeOpen TreeMissing TreeMerkle TreeVerify TreeSpec
  TreeTop P3Tape P3Aux P3Online P3Mask P3Chal P3Round P3Seeds P3Verify P3Sign P3Complete P3Codec.
Import ListNotations.

Local Opaque pack.

Lemma forallb_same {A} (f g : A -> bool) l : (forall x, f x = g x) -> forallb f l = forallb g l.
Proof. intros H. induction l as [|x l IH]; [reflexivity|]. cbn [forallb]. rewrite H, IH. reflexivity. Qed.

Lemma pack_ext l f g : (forall i, i < 8 * l -> f i = g i) -> pack l f = pack l g.
Proof.
  intros H. destruct (pack_spec l g) as (G1 & G2 & G3). destruct (pack_spec l f) as (F1 & F2 & F3).
  symmetry. apply pack_unique; auto. intros k Hk. rewrite G3. replace (k <? 8 * l) with true by lia. symmetry. auto.
Qed.

Section X.
Variable E : env.
Variable P : paramset.
Hypothesis HP3 : wfP3 P.

Let n := stateSizeBits P.
Let R := numRounds P.
Let W := stateSizeWords P.
Let m := numSboxes P.
Let sB := stateSizeBytes P.
Let aB := andSizeBytes P.
Let T := numMPCRounds P.

Lemma ost_ext TT uo M key key' pt pt' : veq n key key' -> veq n pt pt' ->
  forall j, veq n (ost E P TT uo M key pt j) (ost E P TT uo M key' pt' j).
Proof.
  intros Hk Hp. induction j as [|j IH]; intros i Hi.
  - cbn [ost]. fold n W. unfold vxor. f_equal; [apply matvec_ext; exact Hk|apply Hp; auto].
  - cbn [ost]. fold n W m. unfold vxor. f_equal; [f_equal|].
    + apply matvec_ext. intros k Hk'. pose proof (w3_m P HP3) as Hnm. fold m n in Hnm.
      apply (hsbox_ext n); [lia|exact IH| |exact Hk'].
      intros q Hq. assert (Hqn : q < n) by lia. unfold ohh.
      destruct (ga_lt P HP3 q Hqn) as [G1 G2]. fold n in G1, G2.
      rewrite (IH (ga q)), (IH (gb q)) by auto. f_equal. apply xsum_ext. intros x Hx.
      unfold osh. fold n. rewrite (IH (ga q)), (IH (gb q)) by auto. reflexivity.
    + apply matvec_ext. exact Hk.
Qed.

Lemma omsgs_ext tl uo ml key key' pt pt' : veq n key key' -> veq n pt pt' ->
  omsgs E P tl uo ml key pt = omsgs E P tl uo ml key' pt'.
Proof.
  intros Hk Hp. unfold omsgs. apply map_ext. intros i. apply pack_ext. intros p _. fold n R.
  destruct (Nat.ltb_spec p (n * R)) as [Hl|]; [|reflexivity].
  assert (Hn : 0 < n) by (apply (n_pos P HP3)).
  assert (Hq : p mod n < n) by (apply Nat.mod_upper_bound; lia).
  destruct (ga_lt P HP3 (p mod n) Hq) as [G1 G2]. fold n in G1, G2.
  unfold osh. fold n. rewrite !(ost_ext _ _ _ key key' pt pt' Hk Hp (p / n)) by auto. reflexivity.
Qed.

Lemma oout_ext tl uo ml key key' pt pt' : veq n key key' -> veq n pt pt' ->
  oout E P tl uo ml key pt = oout E P tl uo ml key' pt'.
Proof.
  intros Hk Hp. unfold oout. apply pack_ext. intros i _. fold n R.
  destruct (Nat.ltb_spec i n); [|reflexivity]. apply ost_ext; auto.
Qed.

Lemma firstn_bit (a b : bytes) i : firstn sB a = firstn sB b -> i < 8 * sB -> bit a i = bit b i.
Proof.
  intros H Hi. rewrite <- (bit_firstn a sB i), <- (bit_firstn b sB i) by auto. rewrite H. reflexivity.
Qed.

Lemma firstn_veq (a b : bytes) : firstn sB a = firstn sB b -> veq n (bit a) (bit b).
Proof. intros H i Hi. pose proof (n_sB P HP3) as Hn. fold n sB in Hn. apply firstn_bit; auto. lia. Qed.

(** ** Signing *)
Lemma senc_ext sk pt sk' pt' : firstn sB sk = firstn sB sk' -> firstn sB pt = firstn sB pt' ->
  senc E P sk pt = senc E P sk' pt'.
Proof.
  intros Hs Hp. unfold senc. apply pack_ext. intros i _. fold n. destruct (Nat.ltb_spec i n); [|reflexivity].
  apply (lowmc_enc_ext (lowmc_of E P)); auto.
  - apply (wf_m P (w3_wfP P HP3)).
  - apply firstn_veq; auto.
  - apply firstn_veq; auto.
Qed.

Lemma senc_rel sk pub pt : sB <= length pub -> bytes_ok pub ->
  eqb_bytes (senc E P sk pt) (firstn sB pub) = true <-> lowmc_relation E P sk pt pub.
Proof.
  intros Hl Hb. pose proof (n_sB P HP3) as Hn. fold n sB in Hn. rewrite eqb_bytes_eq. unfold senc.
  destruct (pack_spec sB (fun i => if i <? n then lowmc_enc (lowmc_of E P) (bit sk) (bit pt) i else false)) as (S1 & S2 & S3).
  fold sB n. unfold lowmc_relation, padding_zero. fold n sB. split.
  - intros H. assert (Hp : forall i, i < 8 * sB -> bit pub i = if i <? n then lowmc_enc (lowmc_of E P) (bit sk) (bit pt) i else false).
    { intros i Hi. rewrite <- (bit_firstn pub sB i) by auto. rewrite <- H, S3. replace (i <? 8 * sB) with true by lia. reflexivity. }
    split; intros i Hi.
    + rewrite Hp by lia. replace (i <? n) with true by lia. reflexivity.
    + rewrite Hp by lia. replace (i <? n) with false by lia. reflexivity.
  - intros [H1 H2]. symmetry. apply pack_unique.
    + rewrite firstn_length. lia.
    + apply Forall_firstn; auto.
    + intros k Hk. rewrite bit_firstn by auto. destruct (Nat.ltb_spec k n); [apply H1; auto|apply H2; lia].
Qed.

Section SE.
Variables sk pub pt sk' pub' pt' msg : bytes.
Hypothesis Hs : firstn sB sk = firstn sB sk'.
Hypothesis Hu : firstn sB pub = firstn sB pub'.
Hypothesis Hp : firstn sB pt = firstn sB pt'.

Lemma ssr_ext : ssr E P sk pub pt msg = ssr E P sk' pub' pt' msg.
Proof. unfold ssr. fold sB. rewrite Hs, Hu, Hp. reflexivity. Qed.

Lemma ssalt_ext : ssalt E P sk pub pt msg = ssalt E P sk' pub' pt' msg.
Proof. unfold ssalt. rewrite ssr_ext. reflexivity. Qed.

Lemma siseeds_ext : siseeds E P sk pub pt msg = siseeds E P sk' pub' pt' msg.
Proof. unfold siseeds, sroot. rewrite ssr_ext, ssalt_ext. reflexivity. Qed.

Lemma sseeds_ext t : sseeds E P sk pub pt msg t = sseeds E P sk' pub' pt' msg t.
Proof. unfold sseeds. rewrite siseeds_ext, ssalt_ext. reflexivity. Qed.

Lemma stl0_ext t : stl0 E P sk pub pt msg t = stl0 E P sk' pub' pt' msg t.
Proof. unfold stl0. rewrite sseeds_ext, ssalt_ext. reflexivity. Qed.

Lemma stl_ext t : stl E P sk pub pt msg t = stl E P sk' pub' pt' msg t.
Proof. unfold stl. rewrite stl0_ext. reflexivity. Qed.

Lemma srow_ext t : srow E P sk pub pt msg t = srow E P sk' pub' pt' msg t.
Proof. unfold srow. rewrite sseeds_ext, ssalt_ext, stl_ext. reflexivity. Qed.

Lemma smk_ext t : firstn sB (smk E P sk pub pt msg t) = firstn sB (smk E P sk' pub' pt' msg t).
Proof.
  pose proof (sB_4W P HP3) as H4. fold sB W in H4. unfold smk. fold W. rewrite stl0_ext. set (k0 := aux_key _ _ _).
  destruct (pack_spec (4 * W) (fun i => xorb (bit k0 i) (bit sk i))) as (A1 & A2 & A3).
  destruct (pack_spec (4 * W) (fun i => xorb (bit k0 i) (bit sk' i))) as (B1 & B2 & B3).
  apply bits_ext.
  - rewrite !firstn_length. lia.
  - apply Forall_firstn; auto.
  - apply Forall_firstn; auto.
  - intros i Hi. rewrite firstn_length in Hi. rewrite !bit_firstn by lia. rewrite A3, B3.
    rewrite (firstn_bit sk sk' i Hs) by lia. reflexivity.
Qed.

Lemma sms_ext t : sms E P sk pub pt msg t = sms E P sk' pub' pt' msg t.
Proof.
  unfold sms. rewrite stl_ext. apply omsgs_ext.
  - apply firstn_veq, smk_ext.
  - apply firstn_veq, Hp.
Qed.

Lemma scv_ext t : scv E P sk pub pt msg t = scv E P sk' pub' pt' msg t.
Proof. unfold scv, cv_of. fold sB. rewrite smk_ext, sms_ext. reflexivity. Qed.

Lemma smerkle_ext : smerkle E P sk pub pt msg = smerkle E P sk' pub' pt' msg.
Proof. unfold smerkle. rewrite ssalt_ext. rewrite (map_ext _ _ scv_ext). reflexivity. Qed.

Lemma shash_ext : shash E P sk pub pt msg = shash E P sk' pub' pt' msg.
Proof.
  unfold shash, hcp. fold sB. rewrite smerkle_ext, ssalt_ext, Hu, Hp.
  assert (Hc : forall t, sch E P sk pub pt msg t = sch E P sk' pub' pt' msg t).
  { intros t. unfold sch. rewrite srow_ext. reflexivity. }
  rewrite (map_ext _ _ Hc). reflexivity.
Qed.

Lemma ssig_ext C L : ssig E P sk pub pt msg C L = ssig E P sk' pub' pt' msg C L.
Proof.
  unfold ssig. rewrite ssalt_ext, siseeds_ext, smerkle_ext, shash_ext. f_equal. apply map_ext. intros t.
  unfold sproof. destruct (contains C t); [|reflexivity]. cbv zeta. fold sB.
  rewrite sseeds_ext, stl_ext, srow_ext, smk_ext, sms_ext. reflexivity.
Qed.
End SE.

(** ** Verification *)
Lemma vresult_ext s pub pt pub' pt' msg : firstn sB pub = firstn sB pub' -> firstn sB pt = firstn sB pt' ->
  vresult E P s pub pt msg = vresult E P s pub' pt' msg.
Proof.
  intros Hu Hp. pose proof (firstn_veq _ _ Hp) as Hv.
  assert (H1 : forall t, vout E P s pub pt t = vout E P s pub' pt' t).
  { intros t. unfold vout. fold sB. rewrite Hu. f_equal. apply oout_ext; [|exact Hv]. intros i _. reflexivity. }
  assert (H2 : forall t, vcv E P s pt t = vcv E P s pt' t).
  { intros t. unfold vcv, vms. f_equal. apply omsgs_ext; [|exact Hv]. intros i _. reflexivity. }
  unfold vresult. f_equal.
  - unfold vsim. apply forallb_same. intros t. rewrite H1. reflexivity.
  - assert (H3 : vmerkle E P s pt = vmerkle E P s pt').
    { unfold vmerkle. assert (Hc : vCv E P s pt = vCv E P s pt').
      { unfold vCv. apply map_ext. intros t. rewrite H2. reflexivity. }
      rewrite Hc. reflexivity. }
    rewrite H3. destruct (vmerkle E P s pt') as [t|]; [|reflexivity]. unfold hcp. fold sB. rewrite Hu, Hp. reflexivity.
Qed.

(** ** Sizes *)
Section Z.
Variables sk pub pt msg : bytes.
Hypothesis HE : env_bytes_ok E.
Hypothesis Hsk : 4 * W <= length sk.
Hypothesis Hpt : 4 * W <= length pt.
Hypothesis Hpub : sB <= length pub.
Variables C L : list nat.
Hypothesis Hw : chal_wf P C L.

Let HT : 2 <= T <= 1024 := T_rng P HP3.

Lemma ssig_raw : sig3_raw P (ssig E P sk pub pt msg C L) /\ all_pads P (ssig E P sk pub pt msg C L) = true.
Proof.
  destruct (ssig_wf E P sk pub pt msg HP3 HE Hsk Hpt Hpub C L Hw) as (H1 & H2 & H3 & H4 & H5 & H6).
  set (s := ssig E P sk pub pt msg C L) in *.
  assert (Hp : forall t, t < T -> nth t (g_proofs s) None = sproof E P sk pub pt msg C L t).
  { intros t Ht. cbn [s ssig g_proofs]. rewrite nth_map_seq by auto. reflexivity. }
  split.
  - unfold sig3_raw. repeat (split; [solve [auto]|]). split; [|split; [auto|]].
    + cbn [s ssig g_cvInfo g_challengeC].
      destruct (smerkle_ok E P sk pub pt msg HP3 HE Hsk Hpt Hpub) as (t0 & _ & _ & Hm).
      assert (Hsh : shape T (Nat.log2_up T) (digestSizeBytes P) (smerkle E P sk pub pt msg)) by apply Hm.
      destruct (mrvs_ok T HT (others P C) _ _ (others_lt P C) Hsh) as (_ & mm & Hr).
      rewrite (length_concat_const (digestSizeBytes P)); [rewrite map_length; reflexivity|].
      intros x Hx. apply in_map_iff in Hx. destruct Hx as (r & <- & Hin).
      unfold nd. apply (sh_nl _ _ _ _ Hsh). apply (mrevealed_lt T (Nat.log2_up T) (others P C) mm _ r Hr Hin).
    + intros t Ht. change (g_challengeC s) with C in *. change (g_challengeP s) with L in *. unfold rwf.
      destruct (contains C t) eqn:Ec.
      * pose proof Ec as Hin. apply contains_In in Hin. destruct (H6 t Hin) as (q & Hq & Hwq).
        exists q. split; [auto|]. split; [auto|]. intros Hp15. rewrite Hp in Hq by auto. unfold sproof in Hq.
        rewrite Ec in Hq. injection Hq as <-. cbn [q_aux]. rewrite Hp15. reflexivity.
      * rewrite Hp by auto. unfold sproof. rewrite Ec. reflexivity.
  - unfold all_pads. apply forallb_forall. intros t Ht. apply in_seq in Ht. fold T in Ht.
    change (g_challengeC s) with C in *. change (g_challengeP s) with L in *. rewrite Hp by lia. unfold rpad, sproof.
    destruct (contains C t) eqn:Ec; [|reflexivity]. cbn [q_aux q_msgs].
    pose proof Ec as Hin. apply contains_In in Hin. destruct (unopened_party_ok P C L t Hw Hin) as [_ Hv].
    pose proof (aB_nR P HP3) as Ha.
    apply andb_true_iff. split.
    + destruct (Nat.eqb_spec (party C L t) 15); [reflexivity|]. cbn [orb].
      destruct (aux_of_spec P HP3 (stl E P sk pub pt msg t)) as (A1 & A2 & _ & A4).
      apply (padz_ok P HP3 _ A1). intros i Hi. apply A4. apply Hi.
    + unfold sms. set (ms := omsgs _ _ _ _ _ _ _).
      destruct (omsgs_rows E P (stl E P sk pub pt msg t) None (zero_msgs P) (bit (smk E P sk pub pt msg t)) (bit pt)) as [_ M].
      destruct (M _ Hv) as [M1 M2]. apply (padz_ok P HP3 _ M1). intros i Hi.
      pose proof (omsgs_bit E P (stl E P sk pub pt msg t) None (zero_msgs P) (bit (smk E P sk pub pt msg t)) (bit pt) _ i Hv (proj2 Hi)) as Hb.
      unfold tbit at 1 in Hb. fold ms in Hb. fold ms. rewrite Hb. replace (i <? stateSizeBits P * numRounds P) with false by lia.
      apply zero_msgs_bit. auto.
Qed.
End Z.

(** The length of a signature is at most what picnic_signature_size returns. *)
Lemma plen_sum C L : chal_wf P C L ->
  list_sum (map (plen P C L) (seq 0 T)) <=
  numOpenedRounds P * (4 * seedSizeBytes P + 2 * andSizeBytes P + sB + digestSizeBytes P).
Proof.
  intros (W1 & W2 & W3 & _). set (b := 4 * seedSizeBytes P + 2 * andSizeBytes P + sB + digestSizeBytes P).
  assert (H : forall l, list_sum (map (plen P C L) l) <= length (filter (contains C) l) * b).
  { induction l as [|t l IH]; [cbn; lia|]. cbn [map filter].
    change (list_sum (?x :: ?y)) with (x + list_sum y). unfold plen at 1. fold sB.
    destruct (contains C t); cbn [length].
    - destruct (party C L t =? 15); unfold b in *; lia.
    - lia. }
  etransitivity; [apply H|]. rewrite <- W2. apply Nat.mul_le_mono_r. apply NoDup_incl_length.
  - apply NoDup_filter, seq_NoDup.
  - intros x Hx. apply filter_In in Hx. apply contains_In. apply Hx.
Qed.

End X.
