(** Proofs of the Picnic3 properties. *)

From Coq Require Import List NArith Arith Bool Lia ZifyBool ZifyNat ZifyN Permutation.
From Verif Require Import Base Params Env Spec LowMC Tree Picnic3 Api ApiSpec SigSpec P3Spec BaseFacts ParamFacts
  LowMCFacts LowMCInj UtilFacts ZkbChal TreeShape TreeReveal TreeOpen TreeMissing TreeMerkle TreeVerify
  P3Tape P3Aux P3Online P3Mask P3Chal P3Round P3Seeds P3Verify P3Sign P3Complete P3Codec P3Ext P3Api P3Uninit.
Import ListNotations.

Local Opaque pack.

(** ** Signing and verifying *)
Lemma C02_pf E u P fuel fuel' sk pk msg buf len buf' l :
  get_param_set (sk_params sk) = Some P -> is_picnic3 (sk_params sk) = true ->
  env_bytes_ok E -> env_bytes_ok (with_uninit E u) -> constants_ok E P -> inverses_ok E P ->
  sk_wf sk -> pk_wf pk -> pk_of P sk pk -> len <= length buf -> fuel <= fuel' ->
  picnic_sign E fuel sk msg buf len = Ok (true, buf', l) ->
  picnic_verify (with_uninit E u) fuel' pk msg (firstn l buf') = Ok true.
Proof.
  intros HP H3 HE HE' HC HI Wsk Wpk (Q1 & Q2 & Q3) Hl Hf Hs.
  rewrite <- (sign3_uninit E u P _ HP H3 HE HE' HC HI) in Hs by auto.
  apply (sign_verify3 (with_uninit E u) P _ HP H3 HE' HC HI fuel fuel' sk msg buf len buf' l); auto.
Qed.

(** ** Challenges *)
Lemma C22_p3_pf E P p fuel h : get_param_set p = Some P -> is_picnic3 p = true -> env_bytes_ok E ->
  digestSizeBytes P <= length h ->
  match expandChallengeHash E P fuel h with
  | Ok (C, L) => chal3_wf P C L
  | NoFuel => True
  | _ => False
  end.
Proof.
  intros HP H3 HE Hh. pose proof (get_param_set_wfP3 _ _ HP H3) as HP3.
  pose proof (expandChallengeHash_ok E P HP3 HE fuel h Hh) as H.
  destruct (expandChallengeHash E P fuel h) as [[C L]| | |]; cbn [okf fst snd] in H; auto.
  unfold chal3_wf. rewrite (w3_N P HP3). exact H.
Qed.

(** ** The encoding *)
Lemma others_filter P C : filter (fun t => negb (existsb (Nat.eqb t) C)) (seq 0 (numMPCRounds P)) = others P C.
Proof.
  reflexivity.
Qed.

(** The party of a round, by position. *)
Lemma party_nth P C L k t v : chal_wf P C L -> nth_error C k = Some t -> nth_error L k = Some v -> party C L t = v.
Proof.
  intros (W1 & W2 & _ & W4 & _) Hk Hv.
  assert (Hin : In t C) by (eapply nth_error_In; eauto).
  unfold party, unopened_party. destruct (indexOf_ok P C t Hin) as (i & -> & Hi & Hn). cbn [bind].
  assert (Hki : i = k).
  { assert (Hkl : k < length C) by (apply nth_error_Some; congruence).
    apply (nth_error_nth _ _ 0) in Hk.
    apply (proj1 (NoDup_nth C 0) W1); auto. rewrite Hk. exact Hn. }
  subst i. rewrite (rd_ok L k 0) by lia. apply (nth_error_nth _ _ 0) in Hv. congruence.
Qed.

Lemma party_map P C L : chal_wf P C L -> map (party C L) C = L.
Proof.
  intros Hw. pose proof Hw as (W1 & W2 & _ & W4 & _).
  apply (nth_ext _ _ (party C L 0) 0); [rewrite map_length; lia|].
  rewrite map_length. intros k Hk. rewrite map_nth. apply (party_nth P C L k); auto.
  - apply nth_error_nth'. auto.
  - apply nth_error_nth'. lia.
Qed.

Lemma sum_filter (g : nat -> nat) C l : list_sum (map (fun t => if contains C t then g t else 0) l) =
  list_sum (map g (filter (contains C) l)).
Proof.
  induction l as [|t l IH]; [reflexivity|]. cbn [map filter]. change (list_sum (?x :: ?y)) with (x + list_sum y).
  destruct (contains C t); cbn [map]; [change (list_sum (?x :: ?y)) with (x + list_sum y)|]; rewrite IH; reflexivity.
Qed.

Lemma sum_perm l l' : Permutation l l' -> list_sum l = list_sum l'.
Proof. unfold list_sum. induction 1; cbn [fold_right] in *; lia. Qed.

Lemma plen_total P C L : chal_wf P C L ->
  list_sum (map (plen P C L) (seq 0 (numMPCRounds P))) = list_sum (map (proof2_len P) L).
Proof.
  intros Hw. pose proof Hw as (W1 & W2 & W3 & _).
  rewrite (map_ext (plen P C L) (fun t => if contains C t then proof2_len P (party C L t) else 0)).
  2:{ intros t. unfold plen, proof2_len. destruct (contains C t); [|reflexivity]. destruct (party C L t =? 15); lia. }
  rewrite sum_filter. replace (map (proof2_len P) L) with (map (fun t => proof2_len P (party C L t)) C)
    by (rewrite <- (map_map (party C L) (proof2_len P)), (party_map P C L Hw); reflexivity). apply sum_perm, Permutation_map.
  apply NoDup_Permutation; auto.
  - apply NoDup_filter, seq_NoDup.
  - intros t. rewrite filter_In, contains_In, in_seq. rewrite Forall_forall in W3. split; [tauto|].
    intros Hin. specialize (W3 t Hin). split; [lia|auto].
Qed.

Section Codec.
Variable E : env.
Variable P : paramset.
Variable p : N.
Hypothesis HP : get_param_set p = Some P.
Hypothesis H3 : is_picnic3 p = true.
Hypothesis HE : env_bytes_ok E.
Let HP3 : wfP3 P := get_param_set_wfP3 _ _ HP H3.
Let HT : 2 <= numMPCRounds P <= 1024 := T_rng P HP3.

Lemma gpad_iff b : length b = andSizeBytes P -> padz P b = true <-> gate_padding_zero P b.
Proof.
  intros Hb. destruct (padz_ok P HP3 b Hb) as [_ ->]. unfold gate_padding_zero.
  pose proof (w3_m P HP3) as Hm. replace (3 * numRounds P * numSboxes P) with (stateSizeBits P * numRounds P) by (rewrite <- Hm; lia).
  reflexivity.
Qed.

Lemma nth_error_opt {A} (l : list (option A)) t x : t < length l -> nth t l None = x <-> nth_error l t = Some x.
Proof.
  intros Ht. split.
  - intros <-. apply nth_error_nth'. auto.
  - intros H. apply (nth_error_nth _ _ None) in H. auto.
Qed.

Lemma expand_chal fuel h C L : digestSizeBytes P <= length h -> expandChallengeHash E P fuel h = Ok (C, L) -> chal_wf P C L.
Proof.
  intros Hh Hx. pose proof (expandChallengeHash_ok E P HP3 HE fuel h Hh) as H. rewrite Hx in H. exact H.
Qed.

Lemma sig2_raw fuel s : sig2_wf E P fuel s -> sig3_raw P s /\ all_pads P s = true.
Proof.
  intros (H1 & H2 & Hx & Hi & Hc & Hl & Hq & Hn). rewrite others_filter in Hc.
  assert (Hw : chal_wf P (g_challengeC s) (g_challengeP s)) by (apply (expand_chal fuel (g_challengeHash s)); auto; lia).
  set (C := g_challengeC s) in *. set (L := g_challengeP s) in *.
  pose proof Hw as (W1 & W2 & W3 & W4 & W5).
  rewrite (revealSize P _ HT C W3) in Hi. injection Hi as Hi.
  rewrite (revealMSize P HP3 _ (others_lt P C)) in Hc. injection Hc as Hc.
  assert (Hin : forall t, In t C -> exists q, nth t (g_proofs s) None = Some q /\ proof2_wf P (party C L t) q).
  { intros t Ht. pose proof Ht as Ht'. apply In_nth_error in Ht. destruct Ht as (k & Hk).
    assert (k < length C) by (apply nth_error_Some; congruence).
    destruct (nth_error L k) as [v|] eqn:Hv.
    - destruct (Hq k t v Hk Hv) as (q & Hnth & Hwf). exists q. rewrite (party_nth P C L k t v Hw Hk Hv).
      split; [|auto]. apply (nth_error_nth _ _ None) in Hnth. auto.
    - apply nth_error_None in Hv. lia. }
  split.
  - unfold sig3_raw. fold C L. repeat (split; [solve [auto]|]). intros t Ht. unfold rwf.
    destruct (contains C t) eqn:Ec.
    + apply contains_In in Ec. destruct (Hin t Ec) as (q & -> & Q). exists q. split; [reflexivity|].
      destruct Q as (Q1 & Q2 & Q3 & Q4 & Q5 & Q6 & Q7 & Q8 & Q10). split.
      * unfold proof_wf. auto 10.
      * intros Hp. rewrite Hp in Q10. exact Q10.
    + apply nth_error_opt; [lia|]. apply Hn; auto. intros Hi'. apply contains_In in Hi'. congruence.
  - unfold all_pads. fold C L. apply forallb_forall. intros t Ht. unfold rpad.
    destruct (contains C t) eqn:Ec; [|reflexivity]. apply contains_In in Ec.
    destruct (Hin t Ec) as (q & -> & Q). destruct Q as (Q1 & Q2 & Q3 & Q4 & Q5 & Q6 & Q7 & Q8 & Q10).
    apply andb_true_iff. split; [|apply gpad_iff; auto].
    destruct (party C L t =? 15); [reflexivity|]. cbn [orb]. apply gpad_iff; auto.
Qed.

Lemma raw_sig2 fuel s : sig3_raw P s -> all_pads P s = true -> 
  expandChallengeHash E P fuel (g_challengeHash s) = Ok (g_challengeC s, g_challengeP s) -> sig2_wf E P fuel s.
Proof.
  intros (H1 & H2 & Hw & Hi & Hc & Hl & Hr) Ha Hx. unfold sig2_wf. cbv zeta. rewrite others_filter.
  set (C := g_challengeC s) in *. set (L := g_challengeP s) in *.
  pose proof Hw as (W1 & W2 & W3 & W4 & W5).
  rewrite (revealSize P _ HT C W3), (revealMSize P HP3 _ (others_lt P C)), Hi, Hc.
  repeat (split; [solve [auto]|]). split.
  - intros k t v Hk Hv. assert (Hin : In t C) by (eapply nth_error_In; eauto).
    assert (Ht : t < numMPCRounds P) by (rewrite Forall_forall in W3; auto).
    pose proof (party_nth P C L k t v Hw Hk Hv) as Hp.
    pose proof Hin as Ec. apply contains_In in Ec.
    specialize (Hr t Ht). unfold rwf in Hr. rewrite Ec in Hr. destruct Hr as (q & Hq & (Q1 & Q2 & Q3 & Q4 & Q5 & Q6 & Q7) & Qa).
    exists q. split; [apply nth_error_opt; [lia|auto]|].
    unfold all_pads in Ha. rewrite forallb_forall in Ha. specialize (Ha t). fold C L in Ha.
    rewrite in_seq in Ha. specialize (Ha ltac:(lia)). unfold rpad in Ha. rewrite Ec, Hq, Hp in Ha.
    apply andb_true_iff in Ha. destruct Ha as [Ha1 Ha2]. rewrite Hp in Qa.
    unfold proof2_wf. repeat (split; [solve [auto]|]). split; [apply gpad_iff; auto|]. repeat (split; [solve [auto]|]).
    destruct (Nat.eqb_spec v 15) as [Hv15|Hv15]; [auto|]. cbn [orb] in Ha1. apply gpad_iff; auto.
  - intros t Ht Hnin. specialize (Hr t Ht). unfold rwf in Hr. destruct (contains C t) eqn:Ec.
    + apply contains_In in Ec. contradiction.
    + apply nth_error_opt; [lia|auto].
Qed.

Lemma sig2_enc_len s : sig3_raw P s -> length (enc3 P s) = sig2_len P s.
Proof.
  intros Hr. rewrite (enc3_len P HP3 s Hr). destruct Hr as (H1 & H2 & Hw & Hi & Hc & Hl & Hr).
  unfold slen, sig2_len. rewrite (plen_total P _ _ Hw), Hi, Hc. lia.
Qed.

Lemma C14_round_trip_pf fuel s buf len : sig2_wf E P fuel s -> len <= length buf ->
  (len < sig2_len P s -> serializeSignature2 P s buf len = Ok None) /\
  (sig2_len P s <= len -> exists buf',
     serializeSignature2 P s buf len = Ok (Some (sig2_len P s, buf')) /\
     length buf' = length buf /\ skipn (sig2_len P s) buf' = skipn (sig2_len P s) buf /\
     deserializeSignature2 E P fuel (firstn (sig2_len P s) buf') = Ok (Some s)).
Proof.
  intros Hs Hl. destruct (sig2_raw fuel s Hs) as [Hr Ha]. pose proof (sig2_enc_len s Hr) as Hlen.
  rewrite (serialize2_ok P HP3 s buf len Hr Hl). rewrite Hlen. split; intros H.
  - replace (len <? sig2_len P s) with true by lia. reflexivity.
  - replace (len <? sig2_len P s) with false by lia. eexists. split; [reflexivity|]. split; [|split].
    + rewrite app_length, skipn_length, Hlen. lia.
    + rewrite <- Hlen. rewrite skipn_app, skipn_all, Nat.sub_diag, skipn_O. reflexivity.
    + rewrite <- Hlen. rewrite firstn_app, firstn_all, Nat.sub_diag, firstn_O, app_nil_r.
      rewrite (deser_enc P HP3 E fuel s Hr); [rewrite Ha; reflexivity|]. apply Hs.
Qed.

Lemma C14_accepted_pf fuel sg s : bytes_ok sg -> deserializeSignature2 E P fuel sg = Ok (Some s) ->
  sig2_wf E P fuel s /\ length sg = sig2_len P s /\
  forall buf len, length sg <= len <= length buf ->
    serializeSignature2 P s buf len = Ok (Some (length sg, sg ++ skipn (length sg) buf)).
Proof.
  intros Hb Hd.
  destruct (deser_cases P HP3 E HE fuel sg Hb) as [[_ H]|[(_ & _ & H)|(C & L & _ & Hx & _ & H)]]; try congruence.
  destruct H as [[_ H]|(s' & Hr & He & HsC & HsP & Hh & H)]; [congruence|].
  destruct (all_pads P s') eqn:Ha; [|congruence]. assert (s' = s) by congruence. subst s'.
  rewrite <- Hh, <- HsC, <- HsP in Hx.
  split; [apply raw_sig2; auto|]. split; [rewrite He; apply sig2_enc_len; auto|].
  intros buf len Hlen. rewrite (serialize2_ok P HP3 s buf len Hr) by lia. rewrite He in Hlen |- *.
  replace (len <? length (enc3 P s)) with false by lia. reflexivity.
Qed.

End Codec.

(** ** Binding *)
Definition p3_transcript (E : env) (P : paramset) (fuel : nat) (pk : publickey) (msg sg : bytes) : bytes :=
  match deserializeSignature2 E P fuel sg with
  | Ok (Some s) =>
      match vmerkle E P s (pk_plaintext pk) with
      | Some t =>
          concat (map (vch E P s) (seq 0 (numMPCRounds P))) ++ nd t 0 ++ g_salt s ++
          block P (pk_ciphertext pk) ++ block P (pk_plaintext pk) ++ msg
      | None => []
      end
  | _ => []
  end.

Lemma vch_len E P s t : env_bytes_ok E -> length (vch E P s t) = digestSizeBytes P.
Proof. intros HE. unfold vch, ch_of. exact (hash_length E P _ _ _ HE). Qed.

Lemma firstn_len {A} k (l : list A) : length l = k -> firstn k l = l.
Proof. intros <-. apply firstn_all. Qed.

Lemma transcript_ok E P p fuel pk msg sg : get_param_set p = Some P -> is_picnic3 p = true ->
  env_bytes_ok E -> constants_ok E P -> inverses_ok E P -> pk_params pk = p -> pk_wf pk -> bytes_ok sg ->
  picnic_verify E fuel pk msg sg = Ok true ->
  hash E P HASH_PREFIX_NONE [p3_transcript E P fuel pk msg sg] (digestSizeBytes P) = firstn (digestSizeBytes P) sg /\
  exists pre, p3_transcript E P fuel pk msg sg = pre ++ block P (pk_ciphertext pk) ++ block P (pk_plaintext pk) ++ msg /\
    length pre = numMPCRounds P * digestSizeBytes P + digestSizeBytes P + saltSizeBytes P.
Proof.
  intros HP H3 HE HC HI Hp W Hb Hv. pose proof (get_param_set_wfP3 _ _ HP H3) as HP3.
  destruct (verify3_cases E P p HP H3 HE HC HI fuel pk sg Hp W Hb) as [H|[[H _]|(s & Hr & _ & He & Hh & _ & Hd & H)]];
    rewrite H in Hv; try discriminate. injection Hv as Hv.
  unfold p3_transcript. rewrite Hd. unfold vresult in Hv. apply andb_true_iff in Hv. destruct Hv as [_ Hv].
  destruct W as [Wpt Wpub].
  destruct (block_len P p HP H3 _ Wpt) as [L2 _]. destruct (block_len P p HP H3 _ Wpub) as [_ L3].
  pose proof (raw_wf P _ Hr) as Hw.
  pose proof (T_rng P HP3) as HT.
  pose proof (vmerkle_ok E P s (pk_ciphertext pk) (pk_plaintext pk) HP3 HE Hw L2 L3) as Hm.
  destruct (vmerkle E P s (pk_plaintext pk)) as [t|] eqn:Em; [|discriminate].
  destruct Hm as (t0 & _ & r & _ & Hm). destruct r as [t1|]; [|discriminate]. destruct Hm as [_ Hsh].
  apply eqb_bytes_eq in Hv. rewrite Hh in Hv.
  assert (Hroot : length (nd t 0) = digestSizeBytes P).
  { unfold nd. apply (sh_nl _ _ _ _ Hsh). unfold nN, nF. pose proof (n_pow _ HT). lia. }
  assert (Hsalt : length (g_salt s) = saltSizeBytes P) by apply Hr.
  split.
  - rewrite Hv. unfold hcp, hash. f_equal. f_equal. cbn [concat]. rewrite app_nil_r.
    rewrite concat_app. cbn [concat]. rewrite app_nil_r. unfold block. rewrite (firstn_len _ _ Hroot), (firstn_len _ _ Hsalt).
    f_equal. rewrite map_map. f_equal. apply map_ext. intros x. symmetry. apply firstn_len. apply vch_len; auto.
  - exists (concat (map (vch E P s) (seq 0 (numMPCRounds P))) ++ nd t 0 ++ g_salt s). rewrite <- !app_assoc.
    split; [reflexivity|]. rewrite !app_length, Hroot, Hsalt.
    rewrite (length_concat_const (digestSizeBytes P)); [rewrite map_length, seq_length; lia|].
    intros x Hx. apply in_map_iff in Hx. destruct Hx as (y & <- & _). apply vch_len; auto.
Qed.

Lemma app_inj_len {A} (a b c d : list A) : length a = length c -> a ++ b = c ++ d -> a = c /\ b = d.
Proof.
  revert c. induction a as [|x a IH]; intros [|y c] Hl H; cbn in *; try discriminate; auto.
  injection H as -> H. destruct (IH c) as [-> ->]; auto.
Qed.

Lemma C18_pf E P p fuel pk pk' msg msg' sg : get_param_set p = Some P -> is_picnic3 p = true ->
  env_bytes_ok E -> constants_ok E P -> inverses_ok E P ->
  pk_params pk = p -> pk_wf pk -> pk_params pk' = p -> pk_wf pk' -> bytes_ok sg ->
  picnic_verify E fuel pk msg sg = Ok true -> picnic_verify E fuel pk' msg' sg = Ok true ->
  (msg, block P (pk_ciphertext pk), block P (pk_plaintext pk)) <>
  (msg', block P (pk_ciphertext pk'), block P (pk_plaintext pk')) ->
  let X := p3_transcript E P fuel pk msg sg in
  let Y := p3_transcript E P fuel pk' msg' sg in
  collide E P HASH_PREFIX_NONE X Y /\ hash E P HASH_PREFIX_NONE [X] (digestSizeBytes P) = firstn (digestSizeBytes P) sg.
Proof.
  intros HP H3 HE HC HI Hp W Hp' W' Hb Hv Hv' Hne X Y. pose proof (get_param_set_wfP3 _ _ HP H3) as HP3.
  destruct (transcript_ok E P p fuel pk msg sg HP H3 HE HC HI Hp W Hb Hv) as [Hx (pre & Ex & Lx)].
  destruct (transcript_ok E P p fuel pk' msg' sg HP H3 HE HC HI Hp' W' Hb Hv') as [Hy (pre' & Ey & Ly)].
  fold X in Hx, Ex. fold Y in Hy, Ey. split; [|exact Hx]. split; [|congruence].
  intros Hxy. apply Hne. rewrite Ex, Ey in Hxy.
  assert (Hbl : forall b, block_wf b -> length (block P b) = stateSizeBytes P).
  { intros b Hbw. destruct (block_len P p HP H3 b Hbw) as [_ L]. unfold block. rewrite firstn_length. lia. }
  destruct W as [Wpt Wpub], W' as [Wpt' Wpub'].
  apply app_inj_len in Hxy; [|congruence]. destruct Hxy as [_ Hxy].
  apply app_inj_len in Hxy; [|rewrite !Hbl; auto]. destruct Hxy as [-> Hxy].
  apply app_inj_len in Hxy; [|rewrite !Hbl; auto]. destruct Hxy as [-> ->]. reflexivity.
Qed.

(** ** The online phase *)
Lemma C28_pf E P p tl : get_param_set p = Some P -> is_picnic3 p = true ->
  env_bytes_ok E -> constants_ok E P -> inverses_ok E P -> tapes_wf P tl ->
  exists tp mask, computeAuxTape E P (mkTapes tl 0) = Ok (tp, mask) /\ length mask = stateSizeBytes P /\
  forall key mk pt pub, block_wf mk -> block_wf pt -> block_wf pub ->
  (forall i, i < stateSizeBits P -> bit mk i = xorb (bit key i) (bit mask i)) ->
  exists b ms, simulateOnline E P mk tp (allocateMsgs P) pt pub = Ok (b, ms) /\
    (b = true <-> lowmc_relation E P key pt pub).
Proof.
  intros HP H3 HE HC HI [Ht1 Ht2]. pose proof (get_param_set_wfP3 _ _ HP H3) as HP3.
  rewrite (w3_N P HP3) in Ht1.
  assert (Hrows : rows 16 (p3_tapeSize P) tl).
  { split; [auto|]. intros i Hi. rewrite Forall_forall in Ht2. apply Ht2, nth_In. lia. }
  exists (mkTapes (aux_tapes E P tl) 0), (aux_key E P tl). split; [apply computeAuxTape_ok; auto|].
  destruct (pack_spec (stateSizeBytes P) (fun i => if i <? stateSizeBits P then mkey E P tl i else false)) as (K1 & K2 & K3).
  split; [exact K1|]. intros key mk pt pub Wmk Wpt Wpub Hmk.
  destruct (block_len P p HP H3 _ Wmk) as [_ L1]. destruct (block_len P p HP H3 _ Wpt) as [L2 _].
  destruct (block_len P p HP H3 _ Wpub) as [_ L3].
  pose proof (n_sB P HP3) as Hn.
  unfold allocateMsgs. rewrite (w3_N P HP3). fold (zero_msgs P).
  rewrite (simulateOnline_ok E P HP3 HE HC) by
    (auto using zero_msgs_rows; try apply aux_tapes_spec; auto; try discriminate; try lia; first [apply Wmk|apply Wpt]).
  eexists _, _. split; [reflexivity|].
  assert (Ho : oout E P (aux_tapes E P tl) None (zero_msgs P) (bit mk) (bit pt) = senc E P key pt).
  { unfold oout, senc. apply pack_ext. intros k Hk. destruct (Nat.ltb_spec k (stateSizeBits P)) as [Hl|Hl]; [|reflexivity].
    apply (ost_final E P HP3 HI); auto. intros i Hi. unfold vxor. rewrite Hmk by auto. f_equal.
    unfold aux_key. rewrite K3. replace (i <? 8 * stateSizeBytes P) with true by lia. replace (i <? stateSizeBits P) with true by lia. reflexivity. }
  rewrite Ho. apply senc_rel; auto. apply Wpub.
Qed.
