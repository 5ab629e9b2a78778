(** The code for the ZKB++ parameter sets computes the scheme of ZkbppSpec.v, continued. *)

From Coq Require Import List NArith Arith Bool Btauto Lia ZifyBool ZifyNat ZifyN.
From Verif Require Import Base Params Env Spec LowMC Picnic1 Api BaseFacts ParamFacts LowMCFacts
  LowMCInj Hint ZkbMpc Zkb ZkbRound ZkbSign ZkbChal ZkbCodec ZkbTop ApiSpec SigSpec ZkbApi
  ZkbppSpec ZkbppProofs.
Import ListNotations.

Lemma bit_skipn b k i : bit (skipn k b) i = bit b (8 * k + i).
Proof.
  unfold bit. rewrite nth_skipn.
  replace (8 * k + i) with (i + k * 8) by lia. rewrite Nat.div_add, Nat.mod_add by lia.
  do 2 f_equal. lia.
Qed.

Lemma pair_land b k : N.land (N.shiftr b k) 3 =
  ((if N.testbit b (k + 1) then 2 else 0) + (if N.testbit b k then 1 else 0))%N.
Proof.
  change 3%N with (N.ones 2). rewrite N.land_ones. change (2 ^ 2)%N with 4%N.
  assert (H0 : N.testbit (N.shiftr b k) 0 = N.testbit b k) by (rewrite N.shiftr_spec'; f_equal; lia).
  assert (H1 : N.testbit (N.shiftr b k) 1 = N.testbit b (k + 1)) by (rewrite N.shiftr_spec'; f_equal; lia).
  rewrite <- H0, <- H1. generalize (N.shiftr b k). clear. intros x.
  rewrite (N.testbit_eqb x 0), (N.testbit_eqb x 1).
  change (2 ^ 0)%N with 1%N. change (2 ^ 1)%N with 2%N. rewrite N.div_1_r.
  pose proof (N.div_mod x 2 ltac:(lia)). pose proof (N.mod_lt x 2 ltac:(lia)).
  pose proof (N.div_mod (x / 2) 2 ltac:(lia)). pose proof (N.mod_lt (x / 2) 2 ltac:(lia)).
  assert (x mod 4 = x mod 2 + 2 * ((x / 2) mod 2))%N.
  { symmetry. apply (N.mod_unique x 4 (x / 2 / 2)); lia. }
  destruct (N.eqb_spec (x mod 2) 1); destruct (N.eqb_spec ((x / 2) mod 2) 1); lia.
Qed.

Definition pairN (b0 b1 : bool) : N := ((if b0 then 2 else 0) + (if b1 then 1 else 0))%N.

Lemma bit_cons x h i : bit (x :: h) (8 + i) = bit h i.
Proof. change h with (skipn 1 (x :: h)) at 2. rewrite bit_skipn. reflexivity. Qed.

Lemma seq4 k : seq 4 k = map (fun i => 4 + i) (seq 0 k).
Proof.
  rewrite <- !seq_shift, !map_map. reflexivity.
Qed.

Lemma bit_pairs_eq h :
  bit_pairs h = map (fun i => pairN (bit h (2 * i)) (bit h (2 * i + 1))) (seq 0 (4 * length h)).
Proof.
  induction h as [|x h IH]; auto. unfold bit_pairs in *. cbn [flat_map length].
  replace (4 * S (length h)) with (4 + 4 * length h) by lia. rewrite seq_app, map_app. f_equal.
  - unfold byte_pairs. rewrite !pair_land. replace (N.land x 3) with (N.land (N.shiftr x 0) 3)
      by (rewrite N.shiftr_0_r; reflexivity). rewrite pair_land. reflexivity.
  - rewrite IH. cbn [Nat.add]. rewrite seq4, map_map.
    apply map_ext. intros i.
    replace (2 * (4 + i)) with (8 + 2 * i) by lia. replace (8 + 2 * i + 1) with (8 + (2 * i + 1)) by lia.
    rewrite !bit_cons. reflexivity.
Qed.

Lemma pair_value_eq b0 b1 :
  map N.of_nat (pair_value b0 b1) = filter (fun p => (p <? 3)%N) [pairN b0 b1].
Proof. destruct b0, b1; reflexivity. Qed.

Lemma encoded_trit_eq c k : encoded_trit c k = chalv c k.
Proof. unfold encoded_trit, chalv. lia. Qed.

Section Z.
Variable E : env.
Variable P : paramset.
Variable sp : sparams.
Hypothesis HP1 : wfP1 P.
Hypothesis CF : conforms P sp.
Hypothesis HE : env_bytes_ok E.
Hypothesis HC : constants_ok E P.
Let HP : wfP P := w1_wfP P HP1.

Let L := lowmc_of E P.
Let n := stateSizeBits P.
Let m := numSboxes P.
Let R := numRounds P.
Let T := numMPCRounds P.
Let sB := stateSizeBytes P.
Let aB := andSizeBytes P.

(** ** The verifier's MPC evaluation *)
Notation ver_state' := (ver_state sp L).
Notation ver_view' := (ver_view sp L).

Lemma ver_state_hst e x rnd tr p i j :
  veq n (ver_state' e x rnd tr p i j)
        (hst L (ver_const e j) (x j) p (transcript (ver_view' e x rnd tr p j)) i).
Proof.
  induction i as [|i IH]; intros l Hl.
  - cbn [ver_state hst]. unfold vxor, when. rewrite <- (cf_n P sp CF). reflexivity.
  - cbn [ver_state hst]. cbv zeta.
    rewrite (mpc_round_h E P sp CF _ _ _ _ _ (transcript (ver_view' e x rnd tr p j))).
    + f_equal. f_equal. apply matvec_ext. intros a Ha.
      apply (hsbox_ext n); auto; [apply (wf_m P HP)].
    + intros q Hq. cbn [ver_view transcript]. rewrite <- (cf_s P sp CF).
      destruct (gate_div P i q Hq) as [-> ->]. reflexivity.
Qed.

Lemma ver_transcript1 e x rnd tr p g : transcript (ver_view' e x rnd tr p 1) g = tr g.
Proof.
  cbn [ver_view transcript]. unfold ver_gate. cbn [Nat.eqb]. f_equal.
  rewrite <- (cf_s P sp CF). pose proof (wf_m0 P HP).
  symmetry. apply Nat.div_mod. lia.
Qed.

Lemma spec_ver_views ch x rnd p in1 in2 t1 t2 comm2 pt :
  in1 = bytes_of n (x 0) -> in2 = bytes_of n (x 1) ->
  (forall g, g < 3 * m * R -> bit t1 g = rnd 0 g) ->
  (forall g, g < 3 * m * R -> bit t2 g = rnd 1 g) ->
  veq n (bit pt) p ->
  let V := ver_view' ch x rnd (bit comm2) p in
  ver_views E P ch in1 in2 t1 t2 comm2 pt
    (view_bytes P (V 0)) (mkView in2 comm2 (bytes_of n (oShare (V 1)))).
Proof.
  intros Hin1 Hin2 Ht1 Ht2 Hp V. pose proof (wf_m P HP) as Hmn. fold n m in Hmn.
  destruct (bytes_of_spec n (x 0)) as (A1 & A2 & A3).
  destruct (bytes_of_spec n (x 1)) as (B1 & B2 & B3).
  destruct (bytes_of_spec (3 * R * m) (transcript (V 0))) as (C1 & C2 & C3).
  destruct (bytes_of_spec n (oShare (V 0))) as (O1 & O2 & O3).
  destruct (bytes_of_spec n (oShare (V 1))) as (Q1 & Q2 & Q3).
  assert (Hs0 : forall i, i <= R -> veq n
     (hst L (ch =? 0) (bit in1) (bit pt) (bit (bytes_of (3 * R * m) (transcript (V 0)))) i)
     (ver_state' ch x rnd (bit comm2) p i 0)).
  { intros i Hi l Hl. rewrite ver_state_hst by auto.
    replace (ver_const ch 0) with (ch =? 0) by (unfold ver_const; cbn; btauto).
    apply (hst_ext L); auto.
    - intros q Hq. rewrite Hin1, A3. change (q < n) in Hq. replace (q <? n) with true by lia. auto.
    - intros g Hg. change (g < 3 * m * i) in Hg. rewrite C3.
      replace (g <? 3 * R * m) with true by nia. auto. }
  assert (Hs1 : forall i, i <= R -> veq n
     (hst L (ch =? 2) (bit in2) (bit pt) (bit comm2) i)
     (ver_state' ch x rnd (bit comm2) p i 1)).
  { intros i Hi l Hl. rewrite ver_state_hst by auto.
    replace (ver_const ch 1) with (ch =? 2) by (unfold ver_const; cbn; btauto).
    apply (hst_ext L); auto.
    - intros q Hq. rewrite Hin2, B3. change (q < n) in Hq. replace (q <? n) with true by lia. auto.
    - intros g Hg. symmetry. apply ver_transcript1. }
  assert (Hout : forall j b, length b = octets n -> bytes_ok b ->
     (forall i, bit b i = if i <? n then oShare (V j) i else false) ->
     forall s, veq n s (ver_state' ch x rnd (bit comm2) p R j) -> out_share P b s).
  { intros j b H1 H2 H3 s Hs.
    split; [rewrite H1, (cf_nB P sp CF), <- (cf_n P sp CF); reflexivity|]. split; [exact H2|].
    intros i. rewrite H3. fold n. destruct (Nat.ltb_spec i n) as [Hi|]; auto.
    rewrite Hs by auto. unfold V. cbn [ver_view oShare]. rewrite <- (cf_r P sp CF). reflexivity. }
  unfold ver_views. cbv zeta. cbn [view_bytes v_inputShare v_communicatedBits v_outputShare].
  fold n. split; [symmetry; exact Hin1|]. split; [reflexivity|]. split; [reflexivity|].
  fold R m.
  split; [rewrite C1; symmetry; unfold R, m; rewrite (cf_r P sp CF), (cf_s P sp CF); apply (cf_aB P sp CF)|].
  split; [exact C2|].
  split. { intros g Hg. rewrite C3. replace (g <? 3 * R * m) with false by nia. auto. }
  split. { apply (Hout 0); auto. }
  split. { apply (Hout 1); auto. }
  intros i k q Hi Hk Hq. cbv zeta. change (i < R) in Hi. change (k < m) in Hk.
  change (lm_m (lowmc_of E P)) with m. change (lowmc_of E P) with L.
  pose proof (gpos_lt P i k q Hi Hk Hq) as Hg. fold m in Hg.
  rewrite C3. replace (gpos m i k q <? 3 * R * m) with true by (fold R in Hg; nia).
  assert (G1 : gin1 k q < n) by (apply (gin1_lt P HP1); auto).
  assert (G2 : gin2 k q < n) by (apply (gin2_lt P HP1); auto).
  rewrite Ht1, Ht2 by exact Hg. rewrite !Hs0, !Hs1 by (auto; lia).
  unfold V, gpos. cbn [ver_view transcript]. rewrite <- (cf_s P sp CF). fold m.
  destruct (gate_div P i (3 * k + q)) as [H1 H2]; [fold m; lia|]. fold m in H1, H2. rewrite H1, H2.
  unfold ver_gate. cbn [Nat.eqb]. rewrite mpc_and_eq, !and_left_at, !and_right_at by auto.
  rewrite <- (cf_s P sp CF). reflexivity.
Qed.

(** ** Tapes *)
Lemma tape_eq seed salt k j : j < 3 -> party_bytes E P seed salt k j = tape E sp seed salt k j.
Proof.
  intros Hj. unfold party_bytes, tape. cbv zeta.
  assert (Hl : party_len P j = tape_share_len sp j + octets (3 * sp_r sp * sp_s sp)).
  { unfold party_len, tape_share_len. rewrite (cf_nB P sp CF), (cf_aB P sp CF).
    destruct (lt3 j Hj) as [->|[->| ->]]; reflexivity. }
  rewrite Hl, (hash_eq E P sp CF). f_equal.
  rewrite (Hi_eq E P sp CF), !le16_eq. cbn [prefix_bytes HASH_PREFIX_NONE concat app].
  rewrite app_nil_r. reflexivity.
Qed.

Lemma party_in_eq seed salt k j : j < 2 ->
  party_in E P seed salt k j = bytes_of n (tape_share E sp seed salt k j).
Proof.
  intros Hj. destruct (party_in_wf E P HP1 HE seed salt k j Hj) as (H1 & H2 & H3).
  destruct (bytes_of_spec n (tape_share E sp seed salt k j)) as (B1 & B2 & B3).
  apply bits_ext; auto.
  - rewrite H1, B1, (cf_nB P sp CF), <- (cf_n P sp CF). reflexivity.
  - intros i Hi. rewrite B3. destruct (Nat.ltb_spec i n) as [Hn|Hn]; [|apply H3; auto].
    unfold party_in. rewrite H1 in Hi.
    assert (Hl : length (firstn sB (party_bytes E P seed salt k j)) = sB).
    { rewrite firstn_length, (length_party_bytes E P HE). unfold party_len.
      replace (j <? 2) with true by lia. fold sB. lia. }
    destruct (clear_tail_spec P HP1 _ Hl) as (_ & _ & _ & ->). fold n.
    replace (i <? n) with true by lia. rewrite bit_firstn by (fold sB in Hi; lia).
    unfold tape_share. rewrite tape_eq by lia. reflexivity.
Qed.

Lemma party_tape_eq seed salt k j g : j < 3 ->
  bit (party_tape E P seed salt k j) g = tape_rand E sp seed salt k j g.
Proof.
  intros Hj. unfold party_tape, tape_rand, tape_share_len. rewrite tape_eq by auto.
  rewrite <- (cf_nB P sp CF).
  destruct (lt3 j Hj) as [->|[->| ->]]; cbn [Nat.ltb Nat.leb Nat.eqb]; rewrite ?bit_skipn; reflexivity.
Qed.

(** ** Commitments *)
Lemma commit_eq seed v :
  commit_val E P seed v =
  Hi E sp 0 (Hi E sp 4 seed ++ v_inputShare v ++ v_communicatedBits v ++ v_outputShare v).
Proof.
  unfold commit_val. rewrite !(Hi_eq E P sp CF). rewrite !(hash_eq E P sp CF).
  cbn [concat]. rewrite !app_nil_r. reflexivity.
Qed.

Lemma G_len_eq j : G_len P j = G_length sp j.
Proof.
  unfold G_len, G_length. rewrite (cf_S P sp CF), (cf_nB P sp CF), (cf_aB P sp CF). lia.
Qed.

Lemma G_eq j seed v :
  G_val E P j seed v =
  KDF E sp (Hi E sp 5 seed ++ (if j =? 2 then v_inputShare v else []) ++ v_communicatedBits v ++
            le16 (G_length sp j)) (G_length sp j).
Proof.
  unfold G_val. rewrite (Hi_eq E P sp CF), (hash_eq E P sp CF), !G_len_eq, le16_eq.
  f_equal.
Qed.

Lemma commit_view seed v : commit_val E P seed (view_bytes P v) = commitment E sp seed v.
Proof.
  rewrite commit_eq. unfold commitment, view_bytes. cbn [v_inputShare v_communicatedBits v_outputShare].
  rewrite (cf_n P sp CF), (cf_r P sp CF), (cf_s P sp CF). reflexivity.
Qed.

Lemma G_view j seed v : G_val E P j seed (view_bytes P v) = G_commitment E sp j seed v.
Proof.
  rewrite G_eq. unfold G_commitment, view_bytes. cbn [v_inputShare v_communicatedBits].
  rewrite (cf_n P sp CF), (cf_r P sp CF), (cf_s P sp CF). reflexivity.
Qed.

(** ** The challenge *)
Lemma digest_trits_eq h : length h = digestSizeBytes P ->
  map N.of_nat (digest_trits sp h) = good_pairs h.
Proof.
  intros Hl. unfold good_pairs. rewrite bit_pairs_eq. unfold digest_trits.
  rewrite <- (cf_H P sp CF), <- Hl. generalize (seq 0 (4 * length h)). intros l.
  induction l as [|i l IH]; auto. cbn [flat_map map filter]. rewrite map_app, IH, pair_value_eq.
  cbn [filter]. destruct (_ <? 3)%N; reflexivity.
Qed.

Lemma digests_len f : forall h, length h = digestSizeBytes P ->
  Forall (fun d => length d = digestSizeBytes P) (digests E sp f h).
Proof.
  induction f as [|f IH]; intros h Hh; cbn [digests]; constructor; auto.
  apply IH. rewrite (Hi_eq E P sp CF). apply HE.
Qed.

Lemma trits_eq f : forall h need, length h = digestSizeBytes P -> 0 < need ->
  trits E P f h need =
  let ts := flat_map (digest_trits sp) (digests E sp f h) in
  if need <=? length ts then Some (map N.of_nat (firstn need ts)) else None.
Proof.
  induction f as [|f IH]; intros h need Hh Hn; cbn [trits digests flat_map].
  - cbn [length]. cbv zeta. replace (need <=? 0) with false by lia. reflexivity.
  - cbv zeta. rewrite <- (digest_trits_eq h Hh), map_length, app_length.
    set (g := digest_trits sp h).
    destruct (Nat.leb_spec need (length g)) as [H|H].
    + replace (need <=? _) with true by lia. rewrite firstn_map, firstn_app.
      replace (need - length g) with 0 by lia. cbn [firstn]. rewrite app_nil_r. reflexivity.
    + change HASH_PREFIX_1 with (Some 1%N). rewrite <- (Hi_eq E P sp CF). rewrite IH by (try lia; rewrite (Hi_eq E P sp CF); apply HE).
      cbv zeta. set (ts := flat_map _ _).
      destruct (Nat.leb_spec (need - length g) (length ts)).
      * replace (need <=? _) with true by lia. cbn [option_map]. rewrite firstn_app.
        rewrite (firstn_all2 g) by lia. rewrite map_app. reflexivity.
      * replace (need <=? _) with false by lia. reflexivity.
Qed.

Lemma H3_eq f inp :
  trits E P f (chal_hash E P inp) T = option_map (map N.of_nat) (ZkbppSpec.H3 E sp f inp).
Proof.
  rewrite trits_eq; [|apply HE|apply (w1_T P HP1)]. unfold ZkbppSpec.H3. cbv zeta.
  unfold chal_hash. change HASH_PREFIX_1 with (Some 1%N). rewrite <- (Hi_eq E P sp CF).
  unfold T. rewrite (cf_T P sp CF). destruct (_ <=? _); reflexivity.
Qed.

Lemma chal_input_eq fo fc fg pub pt salt msg :
  chal_input P fo fc fg pub pt salt msg =
  challenge_string sp fo fc fg (firstn sB pub ++ firstn sB pt) salt msg.
Proof.
  unfold chal_input, challenge_string, all_parties. rewrite !flat_map_concat_map.
  rewrite (cf_UR P sp CF), (cf_T P sp CF), <- !app_assoc. reflexivity.
Qed.

Lemma challenge_string_ext fo fc fg fo' fc' fg' pk salt msg :
  (forall k j, k < T -> j < 3 -> fo k j = fo' k j) ->
  (forall k j, k < T -> j < 3 -> fc k j = fc' k j) ->
  (sp_UR sp = true -> forall k j, k < T -> j < 3 -> fg k j = fg' k j) ->
  challenge_string sp fo fc fg pk salt msg = challenge_string sp fo' fc' fg' pk salt msg.
Proof.
  intros Ho Hc Hg. unfold challenge_string.
  assert (A : forall f f' : nat -> nat -> bytes, (forall k j, k < T -> j < 3 -> f k j = f' k j) ->
    all_parties sp f = all_parties sp f').
  { intros f f' H. unfold all_parties. rewrite !flat_map_concat_map. f_equal. apply map_ext_in.
    intros k Hk. apply in_seq in Hk. rewrite <- (cf_T P sp CF) in Hk. fold T in Hk.
    rewrite !H by lia. reflexivity. }
  rewrite (A _ _ Ho), (A _ _ Hc). destruct (sp_UR sp) eqn:Hu; [rewrite (A _ _ (Hg eq_refl))|]; auto.
Qed.

Lemma odd_bit x j : j < 2 ->
  N.testbit (N.of_nat x) (N.of_nat j) = Nat.odd (x / (if j =? 0 then 1 else 2)).
Proof.
  intros Hj. rewrite N.testbit_odd, N.shiftr_div_pow2.
  assert (Ho : forall y, N.odd (N.of_nat y) = Nat.odd y).
  { intros y. induction y as [|y IH]; auto. rewrite Nat2N.inj_succ, N.odd_succ, Nat.odd_succ.
    rewrite <- N.negb_odd, <- Nat.negb_odd, IH. reflexivity. }
  assert (j = 0 \/ j = 1) as [-> | ->] by lia; cbn [Nat.eqb]; rewrite <- Ho; f_equal; cbn; lia.
Qed.

Lemma chal_of_eq e : length e = T -> chal_of P (map N.of_nat e) = challenge_bytes sp e.
Proof.
  intros Hl. unfold chal_of, challenge_bytes. rewrite <- (cf_T P sp CF). fold T.
  destruct (pack_spec (numBytes (2 * T)) (fun k => (k <? 2 * T) &&
     N.testbit (nth (k / 2) (map N.of_nat e) 0%N) (N.of_nat (k mod 2)))) as (A1 & A2 & A3).
  destruct (bytes_of_spec (2 * T) (fun k => Nat.odd (nth (k / 2) e 0 / (if k mod 2 =? 0 then 1 else 2))))
    as (B1 & B2 & B3).
  apply bits_ext; auto; [rewrite A1, B1, octets_eq; reflexivity|].
  intros i Hi. rewrite A3, B3. pose proof (octets_spec (2 * T)). rewrite octets_eq in *.
  destruct (Nat.ltb_spec i (2 * T)) as [H2|H2].
  - replace (i <? 8 * numBytes (2 * T)) with true by lia. cbn [andb].
    change 0%N with (N.of_nat 0). rewrite map_nth. apply odd_bit. apply Nat.mod_upper_bound. lia.
  - destruct (i <? _); reflexivity.
Qed.

Lemma H3_range f x e : ZkbppSpec.H3 E sp f x = Some e -> length e = T /\ Forall (fun v => v < 3) e.
Proof.
  unfold ZkbppSpec.H3. destruct (Nat.leb_spec (sp_T sp) (length (flat_map (digest_trits sp) (digests E sp f (Hi E sp 1 x)))))
    as [H|]; [|discriminate].
  intros [= <-]. split; [rewrite firstn_length; unfold T; rewrite (cf_T P sp CF); lia|].
  apply Forall_firstn. apply Forall_flat_map. apply Forall_forall. intros d _.
  unfold digest_trits. apply Forall_flat_map. apply Forall_forall. intros i _.
  destruct (bit d (2 * i)), (bit d (2 * i + 1)); repeat constructor.
Qed.

Lemma chalv_of e k : length e = T -> Forall (fun v => v < 3) e -> k < T ->
  chalv (challenge_bytes sp e) k = nth k e 0.
Proof.
  intros Hl He Hk. unfold chalv, challenge_bytes. rewrite <- (cf_T P sp CF). fold T.
  destruct (bytes_of_spec (2 * T) (fun k => Nat.odd (nth (k / 2) e 0 / (if k mod 2 =? 0 then 1 else 2))))
    as (B1 & B2 & B3). rewrite !B3.
  replace (2 * k <? 2 * T) with true by lia. replace (2 * k + 1 <? 2 * T) with true by lia.
  replace (2 * k) with (0 + k * 2) by lia. rewrite Nat.div_add, Nat.mod_add by lia.
  replace (0 + k * 2 + 1) with (1 + k * 2) by lia. rewrite Nat.div_add, Nat.mod_add by lia. cbn [Nat.div Nat.modulo].
  change (0 / 2) with 0. change (1 / 2) with 0. change (0 mod 2) with 0. change (1 mod 2) with 1.
  cbn [Nat.add Nat.eqb].
  assert (Hv : nth k e 0 < 3).
  { rewrite Forall_forall in He. apply He. apply nth_In. lia. }
  destruct (nth k e 0) as [|[|[|v]]]; [reflexivity|reflexivity|reflexivity|lia].
Qed.
End Z.
