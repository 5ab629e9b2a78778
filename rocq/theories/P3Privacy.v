(** One repetition of Picnic3 with one party unopened does not tell keys of the same public key
    apart: the other key is explained by exactly one tape of the unopened party. *)

From Coq Require Import List NArith Arith Bool Btauto Lia ZifyBool ZifyNat ZifyN.
From Verif Require Import Base Params Env Spec LowMC Picnic1 Picnic3 Api ApiSpec BaseFacts ParamFacts LowMCFacts
  LowMCInj UtilFacts Hint ZkbMpc ZkbChal P3Tape P3Aux P3Online P3Mask P3Spec P3Verify P3Sign P3Ext P3Api P3Props MatInv.
Import ListNotations.

Local Opaque pack.

Lemma xsum_one k f g h : h < k -> (forall i, i < k -> i <> h -> f i = g i) ->
  xorb (xsum k f) (f h) = xorb (xsum k g) (g h).
Proof.
  intros Hh H. induction k as [|k IH]; [lia|]. rewrite !xsum_S.
  destruct (Nat.eq_dec h k) as [->|Hne].
  - rewrite (xsum_ext k f g) by (intros; apply H; lia). btauto.
  - rewrite (H k) by lia. specialize (IH ltac:(lia) ltac:(intros; apply H; lia)).
    transitivity (xorb (xorb (xsum k f) (f h)) (g k)); [btauto|]. rewrite IH. btauto.
Qed.

(** Gate outputs from the state after the S-boxes. *)
Lemma hsbox_gates m u v h h' : veq (3 * m) u v ->
  veq (3 * m) (hsbox m 0 u h) (hsbox m 0 v h') -> veq (3 * m) h h'.
Proof.
  intros Hv H i Hi. destruct (split3 i m Hi) as (k & x & Hk & Hx & ->).
  destruct x as [|[|[|x]]]; [| | |lia].
  - specialize (H (3 * k + 0) ltac:(lia)). rewrite !hsbox_at in H by lia. cbn [Nat.add] in H.
    rewrite !Hv in H by lia. rewrite !Nat.add_0_r in *.
    destruct (v (3 * k + 2)), (v (3 * k + 1)), (v (3 * k)), (h (3 * k)), (h' (3 * k)); auto; discriminate.
  - specialize (H (3 * k + 2) ltac:(lia)). rewrite !hsbox_at in H by lia. cbn [Nat.add] in H.
    rewrite !Hv in H by lia.
    destruct (v (3 * k + 2)), (h (3 * k + 1)), (h' (3 * k + 1)); auto; discriminate.
  - specialize (H (3 * k + 1) ltac:(lia)). rewrite !hsbox_at in H by lia. cbn [Nat.add] in H.
    rewrite !Hv in H by lia.
    destruct (v (3 * k + 2)), (v (3 * k + 1)), (h (3 * k + 2)), (h' (3 * k + 2)); auto; discriminate.
Qed.

Section V.
Variable E : env.
Variable P : paramset.
Hypothesis HP3 : wfP3 P.
Hypothesis HI : inverses_ok E P.

Let n := stateSizeBits P.
Let m := numSboxes P.
Let R := numRounds P.
Let W := stateSizeWords P.
Let aB := andSizeBytes P.
Let tS := p3_tapeSize P.
Let L := lowmc_of E P.

Lemma nm : n = 3 * m.
Proof. pose proof (w3_m P HP3) as H. unfold n, m. lia. Qed.

Variables key key' pt : vec.

(** Difference of the states under the two keys. *)
Definition sdiff (j : nat) : vec := vxor (lowmc_state L key pt j) (lowmc_state L key' pt j).

(** Masked states of a run of the signer on tapes [tl] (before the auxiliary bits are set). *)
Definition zst (tl : list bytes) (mk : vec) (j : nat) : vec :=
  ost E P (tbit (aux_tapes E P tl)) None vzero mk pt j.

Definition bcast (tl : list bytes) (mk : vec) (j i q : nat) : bool :=
  osh P (tbit (aux_tapes E P tl)) None vzero (zst tl mk j) j i q.

Variable tl : list bytes.
Variable mk : vec.
Variable h : nat.
Hypothesis Hh : h < 16.
Hypothesis Ht : rows 16 tS tl.
Hypothesis Hmk : veq n mk (vxor key (mkey E P tl)).

Definition alt3_bit (p : nat) : bool :=
  let j := p / (2 * n) in
  let o := p mod (2 * n) in
  if j <? R then
    if o <? n then xorb (tbit tl h p) (sdiff j o)
    else let q := o - n in let v := zst tl mk j in
         xorb (tbit tl h p) (xorb (v (ga q) && sdiff j (gb q)) (v (gb q) && sdiff j (ga q)))
  else tbit tl h p.
Definition alt3_tape : bytes := pack tS alt3_bit.
Definition alt3 : list bytes := list_set tl h alt3_tape.

Lemma alt3_rows : rows 16 tS alt3.
Proof. apply rows_set; auto; apply pack_spec. Qed.

Lemma alt3_other i p : i < 16 -> i <> h -> tbit alt3 i p = tbit tl i p.
Proof.
  intros Hi Hne. unfold tbit, alt3. rewrite nth_list_set by (rewrite (proj1 Ht); auto).
  replace (i =? h) with false by lia. reflexivity.
Qed.

Lemma alt3_h p : p < 2 * n * R -> tbit alt3 h p = alt3_bit p.
Proof.
  intros Hp. unfold tbit at 1, alt3. rewrite nth_list_set by (rewrite (proj1 Ht); auto).
  rewrite Nat.eqb_refl. unfold alt3_tape. destruct (pack_spec tS alt3_bit) as (_ & _ & ->).
  pose proof (tS_bits P HP3) as Hb. fold n R tS in Hb. replace (p <? 8 * tS) with true by lia. reflexivity.
Qed.

Lemma alt3_mask j q : j < R -> q < n ->
  tbit alt3 h (2 * n * j + q) = xorb (tbit tl h (2 * n * j + q)) (sdiff j q).
Proof.
  intros Hj Hq. rewrite alt3_h by (apply pos_lt; lia). unfold alt3_bit. cbv zeta.
  destruct (pos_split n j q ltac:(lia)) as [-> ->].
  replace (j <? R) with true by lia. replace (q <? n) with true by lia. reflexivity.
Qed.

Lemma alt3_gate j q : j < R -> q < n ->
  tbit alt3 h (2 * n * j + n + q) =
  xorb (tbit tl h (2 * n * j + n + q))
       (xorb (zst tl mk j (ga q) && sdiff j (gb q)) (zst tl mk j (gb q) && sdiff j (ga q))).
Proof.
  intros Hj Hq. rewrite <- Nat.add_assoc. rewrite alt3_h by (apply pos_lt; lia). unfold alt3_bit. cbv zeta.
  destruct (pos_split n j (n + q) ltac:(lia)) as [-> ->].
  replace (j <? R) with true by lia. replace (n + q <? n) with false by lia.
  replace (n + q - n) with q by lia. reflexivity.
Qed.

Hypothesis Hct : veq n (lowmc_state L key pt R) (lowmc_state L key' pt R).

Lemma alt3_lam j q : j <= R -> q < n -> lam P alt3 j q = xorb (lam P tl j q) (sdiff j q).
Proof.
  intros Hj Hq. unfold lam. fold n R. destruct (Nat.ltb_spec j R) as [Hlt|Hge].
  - unfold tpar.
    pose proof (xsum_one 16 (fun i => tbit alt3 i (2 * n * j + q)) (fun i => tbit tl i (2 * n * j + q)) h Hh
      (fun i Hi Hne => alt3_other i _ Hi Hne)) as H. cbv beta in H.
    rewrite alt3_mask in H by auto.
    destruct (xsum 16 (fun i => tbit alt3 i (2 * n * j + q))), (xsum 16 (fun i => tbit tl i (2 * n * j + q))),
      (tbit tl h (2 * n * j + q)), (sdiff j q); auto; discriminate.
  - assert (j = R) as -> by lia. unfold sdiff, vxor. rewrite Hct by auto. rewrite xorb_nilpotent. reflexivity.
Qed.

(** The other key has the same masked key. *)
Lemma alt3_key : veq n mk (vxor key' (mkey E P alt3)).
Proof.
  destruct HI as (_ & HK & _). fold n W in HK.
  pose proof (wf_r P (w3_wfP P HP3)) as Hr. fold R in Hr.
  set (K := mat_of_bytes W (KMatrix E P 0)) in *. set (Ki := mat_of_bytes W (KMatrixInv E P 0)) in *.
  assert (H : veq n (mkey E P alt3) (vxor (mkey E P tl) (vxor key key'))).
  { intros i Hi. unfold mkey. fold n W. fold Ki.
    rewrite (matvec_ext n Ki (lam P alt3 0) (vxor (lam P tl 0) (matvec n K (vxor key key'))) i).
    - rewrite matvec_xor. unfold vxor at 2. f_equal. apply (right_left n K Ki HK); auto.
    - intros q Hq. rewrite alt3_lam by lia. unfold vxor at 1. f_equal. rewrite matvec_xor.
      unfold sdiff. cbn [lowmc_state]. unfold vxor. change (lm_n L) with n. change (lm_K L 0) with K. btauto. }
  intros i Hi. unfold vxor. rewrite H, Hmk by auto. unfold vxor. btauto.
Qed.

(** The masked states stay the same. *)
Lemma alt3_state j : j <= R -> veq n (zst alt3 mk j) (zst tl mk j).
Proof.
  intros Hj i Hi. unfold zst.
  rewrite (ost_lowmc E P HP3 HI alt3 vzero mk key' pt alt3_rows alt3_key j Hj i Hi).
  rewrite (ost_lowmc E P HP3 HI tl vzero mk key pt Ht Hmk j Hj i Hi).
  unfold vxor. rewrite alt3_lam by auto. unfold sdiff, vxor. fold L. btauto.
Qed.

(** So do the masked gate outputs. *)
Definition zgate (t : list bytes) (j q : nat) : bool :=
  ohh P (tbit (aux_tapes E P t)) None vzero (zst t mk j) j q.

Lemma zst_S t j : veq n (zst t mk (S j))
  (vxor (vxor (matvec n (mat_of_bytes W (LMatrix E P j)) (hsbox m 0 (zst t mk j) (zgate t j)))
              (bit (RConstant E P j))) (matvec n (mat_of_bytes W (KMatrix E P (S j))) mk)).
Proof. intros i Hi. reflexivity. Qed.

Lemma alt3_zgate j q : j < R -> q < n -> zgate alt3 j q = zgate tl j q.
Proof.
  intros Hj Hq. destruct HI as (_ & _ & HL). fold n R W in HL. destruct (HL j Hj) as (_ & _ & HLj).
  set (A := mat_of_bytes W (LMatrix E P j)) in *. set (Ai := mat_of_bytes W (LMatrixInv E P j)) in *.
  pose proof (alt3_state j ltac:(lia)) as H0. pose proof (alt3_state (S j) ltac:(lia)) as H1.
  assert (HA : veq n (matvec n A (hsbox m 0 (zst alt3 mk j) (zgate alt3 j)))
                     (matvec n A (hsbox m 0 (zst tl mk j) (zgate tl j)))).
  { intros i Hi. specialize (H1 i Hi). rewrite !zst_S in H1 by auto. unfold vxor in H1. fold A in H1.
    destruct (matvec n A (hsbox m 0 (zst alt3 mk j) (zgate alt3 j)) i),
             (matvec n A (hsbox m 0 (zst tl mk j) (zgate tl j)) i), (bit (RConstant E P j) i),
             (matvec n (mat_of_bytes W (KMatrix E P (S j))) mk i); auto; discriminate. }
  assert (HS : veq n (hsbox m 0 (zst alt3 mk j) (zgate alt3 j)) (hsbox m 0 (zst tl mk j) (zgate tl j))).
  { intros i Hi. rewrite <- (right_left n A Ai HLj (hsbox m 0 (zst alt3 mk j) (zgate alt3 j)) i Hi).
    rewrite <- (right_left n A Ai HLj (hsbox m 0 (zst tl mk j) (zgate tl j)) i Hi).
    apply matvec_ext. auto. }
  rewrite nm in *. exact (hsbox_gates m _ _ _ _ H0 HS q Hq).
Qed.

Lemma aux_raw t i p : rows 16 tS t -> i < 15 -> tbit (aux_tapes E P t) i p = tbit t i p.
Proof. intros Hr Hi. destruct (aux_tapes_spec E P HP3 t Hr) as (_ & G & _). apply G. auto. Qed.

Lemma aux_mask t i j q : rows 16 tS t -> i < 16 -> j < R -> q < n ->
  tbit (aux_tapes E P t) i (2 * n * j + q) = tbit t i (2 * n * j + q).
Proof.
  intros Hr Hi Hj Hq. destruct (aux_tapes_spec E P HP3 t Hr) as (_ & G & G2 & _).
  destruct (Nat.eq_dec i 15) as [->|Hne]; [apply G2; auto|apply G; lia].
Qed.

(** Broadcasts of party [i], other than the last. *)
Lemma bcast_at t j i q : rows 16 tS t -> i < 16 -> j < R -> q < n ->
  bcast t mk j i q =
  xorb (xorb (zst t mk j (ga q) && tbit t i (2 * n * j + gb q))
             (zst t mk j (gb q) && tbit t i (2 * n * j + ga q)))
       (tbit (aux_tapes E P t) i (2 * n * j + n + q)).
Proof.
  intros Hr Hi Hj Hq. destruct (ga_lt P HP3 q Hq). unfold bcast, osh. cbn [isu]. fold n.
  rewrite !aux_mask by auto. reflexivity.
Qed.

Lemma alt3_bcast_low i j q : i < 15 -> j < R -> q < n -> bcast alt3 mk j i q = bcast tl mk j i q.
Proof.
  intros Hi Hj Hq. rewrite !bcast_at by (auto using alt3_rows; lia).
  destruct (ga_lt P HP3 q Hq) as [Ga Gb]. fold n in Ga, Gb.
  rewrite !aux_raw by (auto using alt3_rows). rewrite !alt3_state by lia.
  destruct (Nat.eq_dec i h) as [->|Hne].
  - rewrite !alt3_mask, alt3_gate by auto.
    destruct (zst tl mk j (ga q)), (zst tl mk j (gb q)); btauto.
  - rewrite !alt3_other by lia. reflexivity.
Qed.

Lemma alt3_bcast i j q : i < 16 -> j < R -> q < n -> bcast alt3 mk j i q = bcast tl mk j i q.
Proof.
  intros Hi Hj Hq. destruct (Nat.eq_dec i 15) as [->|Hne]; [|apply alt3_bcast_low; auto; lia].
  pose proof (alt3_zgate j q Hj Hq) as Hz. unfold zgate, ohh in Hz.
  destruct (ga_lt P HP3 q Hq) as [Ga Gb]. fold n in Ga, Gb.
  rewrite (alt3_state j ltac:(lia) (ga q) Ga), (alt3_state j ltac:(lia) (gb q) Gb) in Hz.
  rewrite !(xsum_S 15) in Hz. fold (bcast alt3 mk j 15 q) (bcast tl mk j 15 q) in Hz.
  rewrite (xsum_ext 15 (fun i => osh P (tbit (aux_tapes E P alt3)) None vzero (zst alt3 mk j) j i q)
     (fun i => osh P (tbit (aux_tapes E P tl)) None vzero (zst tl mk j) j i q)) in Hz.
  - destruct (xsum 15 _), (bcast alt3 mk j 15 q), (bcast tl mk j 15 q),
      (zst tl mk j (ga q) && zst tl mk j (gb q)); auto; discriminate.
  - intros i Hi'. apply (alt3_bcast_low i j q); auto.
Qed.

(** The last tape, with the auxiliary bits, stays the same when another party is unopened. *)
Lemma alt3_last p : h <> 15 -> tbit (aux_tapes E P alt3) 15 p = tbit (aux_tapes E P tl) 15 p.
Proof.
  intros Hne.
  destruct (aux_tapes_spec E P HP3 alt3 alt3_rows) as (_ & _ & A2 & A3 & _).
  destruct (aux_tapes_spec E P HP3 tl Ht) as (_ & _ & B2 & B3 & _).
  fold n R in A2, A3, B2, B3.
  destruct (Nat.lt_ge_cases p (2 * n * R)) as [Hp|Hp].
  - destruct (tape_cases P HP3 p Hp) as (j & q & Hj & Hq & [->| ->]); fold n R in Hj, Hq |- *.
    + rewrite A2, B2 by auto. apply alt3_other; lia.
    + pose proof (alt3_bcast 15 j q ltac:(lia) Hj Hq) as Hb.
      rewrite !bcast_at in Hb by (auto using alt3_rows; lia).
      destruct (ga_lt P HP3 q Hq) as [Ga Gb]. fold n in Ga, Gb.
      assert (HjR : j <= R) by (clear - Hj; lia).
      rewrite (alt3_state j HjR _ Ga), (alt3_state j HjR _ Gb), !alt3_other in Hb by auto with arith.
      destruct (tbit (aux_tapes E P alt3) 15 (2 * n * j + n + q)), (tbit (aux_tapes E P tl) 15 (2 * n * j + n + q)),
        (zst tl mk j (ga q) && tbit tl 15 (2 * n * j + gb q)), (zst tl mk j (gb q) && tbit tl 15 (2 * n * j + ga q));
        auto; discriminate.
  - rewrite A3, B3 by auto. apply alt3_other; lia.
Qed.

(** Uniqueness. *)
Lemma same_msgs_state t1 t2 :
  (forall i j q, i < 16 -> j < R -> q < n -> bcast t1 mk j i q = bcast t2 mk j i q) ->
  forall j, j <= R -> veq n (zst t1 mk j) (zst t2 mk j).
Proof.
  intros H. induction j as [|j IH]; intros Hj i Hi; [reflexivity|].
  specialize (IH ltac:(lia)). rewrite !zst_S by auto. unfold vxor. f_equal. f_equal.
  apply matvec_ext. intros k Hk. apply (hsbox_ext n); auto; [rewrite nm; lia|].
  intros q Hq. assert (Hq' : q < n) by (rewrite nm; lia). destruct (ga_lt P HP3 q Hq') as [Ga Gb]. fold n in Ga, Gb.
  unfold zgate, ohh. rewrite (IH (ga q)), (IH (gb q)) by auto. f_equal. apply xsum_ext.
  intros i' Hi'. apply H; auto; lia.
Qed.

Lemma alt3_unique t : length t = tS -> bytes_ok t ->
  veq n mk (vxor key' (mkey E P (list_set tl h t))) ->
  (forall i j q, i < 16 -> j < R -> q < n -> bcast (list_set tl h t) mk j i q = bcast tl mk j i q) ->
  forall j q, j < R -> q < n ->
    bit t (2 * n * j + q) = tbit alt3 h (2 * n * j + q) /\
    (h <> 15 -> bit t (2 * n * j + n + q) = tbit alt3 h (2 * n * j + n + q)).
Proof.
  intros Lt Bt Hk Hb j q Hj Hq. set (t2 := list_set tl h t) in *.
  assert (Hr2 : rows 16 tS t2) by (apply rows_set; auto).
  assert (Hth : forall p, tbit t2 h p = bit t p).
  { intros p. unfold tbit, t2. rewrite nth_list_set by (rewrite (proj1 Ht); auto). rewrite Nat.eqb_refl. auto. }
  assert (Hto : forall i p, i < 16 -> i <> h -> tbit t2 i p = tbit tl i p).
  { intros i p Hi Hne. unfold tbit, t2. rewrite nth_list_set by (rewrite (proj1 Ht); auto).
    replace (i =? h) with false by lia. auto. }
  pose proof (same_msgs_state t2 tl Hb) as Hs.
  assert (Hl : forall q, q < n -> lam P t2 j q = lam P alt3 j q).
  { intros q' Hq'. rewrite alt3_lam by lia. pose proof (Hs j ltac:(lia) q' Hq') as Hz. unfold zst in Hz.
    rewrite (ost_lowmc E P HP3 HI t2 vzero mk key' pt Hr2 Hk j) in Hz by (auto; fold R; lia).
    rewrite (ost_lowmc E P HP3 HI tl vzero mk key pt Ht Hmk j) in Hz by (auto; fold R; lia).
    unfold sdiff, vxor in *. fold L in Hz.
    destruct (lam P t2 j q'), (lam P tl j q'), (lowmc_state L key pt j q'), (lowmc_state L key' pt j q'); auto; discriminate. }
  assert (Hm : forall q, q < n -> tbit t2 h (2 * n * j + q) = tbit alt3 h (2 * n * j + q)).
  { intros q' Hq'. specialize (Hl q' Hq'). unfold lam, tpar in Hl. fold n R in Hl.
    replace (j <? R) with true in Hl by lia.
    pose proof (xsum_one 16 (fun i => tbit t2 i (2 * n * j + q')) (fun i => tbit alt3 i (2 * n * j + q')) h Hh) as Hx.
    cbv beta in Hx. rewrite Hl in Hx.
    assert (Hx' : forall a b c, xorb a b = xorb a c -> b = c) by (intros [] [] []; auto; discriminate).
    eapply Hx', Hx. intros i Hi Hne. rewrite Hto, alt3_other by auto. auto. }
  split; [rewrite <- Hth; auto|]. intros Hne. rewrite <- Hth.
  destruct (ga_lt P HP3 q Hq) as [Ga Gb]. fold n in Ga, Gb.
  pose proof (Hb h j q Hh Hj Hq) as Hbb. rewrite <- alt3_bcast in Hbb by auto.
  rewrite !bcast_at in Hbb by (auto using alt3_rows).
  assert (HjR : j <= R) by (clear - Hj; lia). assert (Hh15 : h < 15) by (clear - Hh Hne; lia).
  rewrite (aux_raw t2 _ _ Hr2 Hh15), (aux_raw alt3 _ _ alt3_rows Hh15) in Hbb.
  rewrite (alt3_state j HjR _ Ga), (alt3_state j HjR _ Gb), (Hs j HjR _ Ga), (Hs j HjR _ Gb), (Hm _ Ga), (Hm _ Gb) in Hbb.
  destruct (tbit t2 h (2 * n * j + n + q)), (tbit alt3 h (2 * n * j + n + q)),
    (zst tl mk j (ga q) && tbit alt3 h (2 * n * j + gb q)), (zst tl mk j (gb q) && tbit alt3 h (2 * n * j + ga q));
    auto; discriminate.
Qed.
End V.

(** ** The code *)
Lemma ok_msgs_inj (a b : list bytes) k uo : Ok (true, mkMsgs a k uo) = Ok (true, mkMsgs b k uo) -> a = b.
Proof. intros H. injection H. auto. Qed.

Lemma C44_pf E P p tl h key key' mk pt pub tp mask :
  get_param_set p = Some P -> is_picnic3 p = true ->
  env_bytes_ok E -> constants_ok E P -> inverses_ok E P -> tapes_wf P tl -> h < numMPCParties P ->
  block_wf mk -> block_wf pt -> block_wf pub ->
  lowmc_relation E P key pt pub -> lowmc_relation E P key' pt pub ->
  computeAuxTape E P (mkTapes tl 0) = Ok (tp, mask) ->
  (forall i, i < stateSizeBits P -> bit mk i = xorb (bit key i) (bit mask i)) ->
  exists ms, simulateOnline E P mk tp (allocateMsgs P) pt pub = Ok (true, ms) /\
  let explains t :=
    length t = p3_tapeSize P /\ bytes_ok t /\
    exists tp' mask', computeAuxTape E P (mkTapes (list_set tl h t) 0) = Ok (tp', mask') /\
      (forall i, i < stateSizeBits P -> bit mk i = xorb (bit key' i) (bit mask' i)) /\
      simulateOnline E P mk tp' (allocateMsgs P) pt pub = Ok (true, ms) /\
      (forall i, i < numMPCParties P -> i <> h -> nth i (tp_tape tp') [] = nth i (tp_tape tp) []) in
  (exists t, explains t) /\
  (forall t1 t2, explains t1 -> explains t2 ->
     forall j q, j < numRounds P -> q < stateSizeBits P ->
       let pos := 2 * stateSizeBits P * j + q in
       bit t1 pos = bit t2 pos /\
       (h <> numMPCParties P - 1 -> bit t1 (pos + stateSizeBits P) = bit t2 (pos + stateSizeBits P))).
Proof.
  intros HP H3 HE HC HI [Ht1 Ht2] Hh Wmk Wpt Wpub Hrel Hrel' Haux Hmk.
  pose proof (get_param_set_wfP3 _ _ HP H3) as HP3.
  rewrite (w3_N P HP3) in *. change (16 - 1) with 15.
  assert (Hrows : rows 16 (p3_tapeSize P) tl).
  { split; [auto|]. intros i Hi. rewrite Forall_forall in Ht2. apply Ht2, nth_In. lia. }
  rewrite computeAuxTape_ok in Haux by auto. injection Haux as <- <-.
  destruct (block_len P p HP H3 _ Wmk) as [_ L1]. destruct (block_len P p HP H3 _ Wpt) as [L2 _].
  destruct (block_len P p HP H3 _ Wpub) as [_ L3].
  pose proof (n_sB P HP3) as Hn.
  unfold allocateMsgs. rewrite (w3_N P HP3). fold (zero_msgs P).
  assert (Hkb : forall t i, i < stateSizeBits P -> bit (aux_key E P t) i = mkey E P t i).
  { intros t i Hi. unfold aux_key.
    destruct (pack_spec (stateSizeBytes P) (fun i => if i <? stateSizeBits P then mkey E P t i else false)) as (_ & _ & K3).
    rewrite K3. replace (i <? 8 * stateSizeBytes P) with true by lia.
    replace (i <? stateSizeBits P) with true by lia. reflexivity. }
  assert (Hsim : forall t k, rows 16 (p3_tapeSize P) t ->
    (forall i, i < stateSizeBits P -> bit mk i = xorb (bit k i) (bit (aux_key E P t) i)) -> lowmc_relation E P k pt pub ->
    simulateOnline E P mk (mkTapes (aux_tapes E P t) 0) (mkMsgs (zero_msgs P) 0 None) pt pub =
    Ok (true, mkMsgs (omsgs E P (aux_tapes E P t) None (zero_msgs P) (bit mk) (bit pt))
               (stateSizeBits P * numRounds P) None)).
  { intros t k Hr Hk Hl.
    rewrite (simulateOnline_ok E P HP3 HE HC) by
      (auto using zero_msgs_rows; try apply aux_tapes_spec; auto; try discriminate; try lia; first [apply Wmk|apply Wpt]).
    f_equal. f_equal.
    assert (Ho : oout E P (aux_tapes E P t) None (zero_msgs P) (bit mk) (bit pt) = senc E P k pt).
    { unfold oout, senc. apply pack_ext. intros i Hi. destruct (Nat.ltb_spec i (stateSizeBits P)) as [Hl'|Hl']; [|reflexivity].
      apply (ost_final E P HP3 HI); auto. intros i' Hi'. unfold vxor. rewrite Hk, Hkb by auto. reflexivity. }
    rewrite Ho. apply senc_rel; auto. apply Wpub. }
  assert (Hv : forall t k, (forall i, i < stateSizeBits P -> bit mk i = xorb (bit k i) (bit (aux_key E P t) i)) ->
            veq (stateSizeBits P) (bit mk) (vxor (bit k) (mkey E P t))).
  { intros t k Hk i Hi. unfold vxor. rewrite Hk, Hkb by auto. reflexivity. }
  assert (Hct : veq (stateSizeBits P) (lowmc_state (lowmc_of E P) (bit key) (bit pt) (numRounds P))
                                      (lowmc_state (lowmc_of E P) (bit key') (bit pt) (numRounds P))).
  { intros i Hi. transitivity (bit pub i); [symmetry|]; [apply Hrel|apply Hrel']; auto. }
  pose proof (Hv _ _ Hmk) as Hmk'.
  eexists. split; [apply (Hsim tl key); auto|].
  cbv zeta.
  set (A := alt3 E P (bit key) (bit key') (bit pt) tl (bit mk) h).
  assert (Hbm : forall t, rows 16 (p3_tapeSize P) t ->
     (forall i j q, i < 16 -> j < numRounds P -> q < stateSizeBits P ->
        tbit (omsgs E P (aux_tapes E P t) None (zero_msgs P) (bit mk) (bit pt)) i (stateSizeBits P * j + q) =
        bcast E P (bit pt) t (bit mk) j i q)).
  { intros t Hr i j q Hi Hj Hq. rewrite (omsgs_at E P HP3) by auto. reflexivity. }
  split.
  - exists (alt3_tape E P (bit key) (bit key') (bit pt) tl (bit mk) h).
    fold (alt3 E P (bit key) (bit key') (bit pt) tl (bit mk) h). fold A.
    assert (HA : rows 16 (p3_tapeSize P) A) by (apply alt3_rows; auto).
    split; [apply pack_spec|]. split; [apply pack_spec|].
    exists (mkTapes (aux_tapes E P A) 0), (aux_key E P A).
    split; [apply computeAuxTape_ok; auto|].
    assert (Hk : forall i, i < stateSizeBits P -> bit mk i = xorb (bit key' i) (bit (aux_key E P A) i)).
    { intros i Hi. rewrite Hkb by auto.
      apply (alt3_key E P HP3 HI (bit key) (bit key') (bit pt) tl (bit mk) h Hh Hrows Hmk' Hct); auto. }
    split; [exact Hk|]. split.
    + rewrite (Hsim A key') by auto. f_equal. f_equal. f_equal.
      apply (rows_ext 16 (andSizeBytes P)); [apply omsgs_rows|apply omsgs_rows|].
      intros i q Hi Hq. rewrite !(omsgs_bit E P) by auto.
      destruct (q <? stateSizeBits P * numRounds P) eqn:Eq; [|reflexivity].
      pose proof (n_pos P HP3) as Hn0.
      assert (q / stateSizeBits P < numRounds P) by (apply Nat.div_lt_upper_bound; clear - Eq Hn0; lia).
      assert (q mod stateSizeBits P < stateSizeBits P) by (apply Nat.mod_upper_bound; clear - Hn0; lia).
      apply (alt3_bcast E P HP3 HI (bit key) (bit key') (bit pt) tl (bit mk) h Hh Hrows Hmk' Hct); auto.
    + intros i Hi Hne. cbn [tp_tape].
      destruct (aux_tapes_spec E P HP3 A HA) as ((_ & A0) & A1 & _).
      destruct (aux_tapes_spec E P HP3 tl Hrows) as ((_ & B0) & B1 & _).
      destruct (A0 i Hi), (B0 i Hi). apply bits_ext; auto; [congruence|]. intros q _.
      fold (tbit (aux_tapes E P A) i q). fold (tbit (aux_tapes E P tl) i q).
      destruct (Nat.eq_dec i 15) as [->|Hi15].
      * apply (alt3_last E P HP3 HI (bit key) (bit key') (bit pt) tl (bit mk) h Hh Hrows Hmk' Hct); auto.
      * rewrite A1, B1 by lia. apply alt3_other; auto.
  - assert (U : forall t, length t = p3_tapeSize P -> bytes_ok t ->
      (exists tp' mask', computeAuxTape E P (mkTapes (list_set tl h t) 0) = Ok (tp', mask') /\
      (forall i, i < stateSizeBits P -> bit mk i = xorb (bit key' i) (bit mask' i)) /\
      simulateOnline E P mk tp' (mkMsgs (zero_msgs P) 0 None) pt pub =
        Ok (true, mkMsgs (omsgs E P (aux_tapes E P tl) None (zero_msgs P) (bit mk) (bit pt))
               (stateSizeBits P * numRounds P) None)) ->
      forall j q, j < numRounds P -> q < stateSizeBits P ->
        bit t (2 * stateSizeBits P * j + q) = tbit A h (2 * stateSizeBits P * j + q) /\
        (h <> 15 -> bit t (2 * stateSizeBits P * j + stateSizeBits P + q) =
                    tbit A h (2 * stateSizeBits P * j + stateSizeBits P + q))).
    { intros t Lt Bt (tp' & mask' & Hc & Hk & Hs).
      assert (Hr : rows 16 (p3_tapeSize P) (list_set tl h t)) by (apply rows_set; auto).
      rewrite computeAuxTape_ok in Hc by auto. injection Hc as <- <-.
      rewrite (Hsim _ key') in Hs by auto. apply ok_msgs_inj in Hs.
      apply (alt3_unique E P HP3 HI (bit key) (bit key') (bit pt) tl (bit mk) h Hh Hrows Hmk' Hct t Lt Bt).
      - apply Hv. exact Hk.
      - intros i j q Hi Hj Hq. rewrite <- !Hbm by auto. rewrite Hs. reflexivity. }
    intros t1 t2 (Lt1 & Bt1 & tp1 & m1 & X1 & X2 & X3 & _) (Lt2 & Bt2 & tp2 & m2 & Y1 & Y2 & Y3 & _) j q Hj Hq.
    destruct (U t1 Lt1 Bt1 (ex_intro _ tp1 (ex_intro _ m1 (conj X1 (conj X2 X3)))) j q Hj Hq) as [U1 U2].
    destruct (U t2 Lt2 Bt2 (ex_intro _ tp2 (ex_intro _ m2 (conj Y1 (conj Y2 Y3)))) j q Hj Hq) as [V1 V2].
    rewrite <- !Nat.add_assoc, (Nat.add_comm q), !Nat.add_assoc.
    split; [congruence|]. intros Hne. rewrite U2, V2 by auto. reflexivity.
Qed.
