(** Byte encoding of ZKB++ signatures. *)

From Coq Require Import List NArith Arith Bool Lia ZifyBool ZifyNat ZifyN.
From Verif Require Import Base Params Env Spec LowMC Picnic1 Api ApiSpec BaseFacts ParamFacts ApiFacts
  LowMCFacts LowMCInj Hint ZkbMpc Zkb SigSpec ZkbRound ZkbSign ZkbChal.
Import ListNotations.

Lemma skipn_skipn {A} x : forall y (l : list A), skipn x (skipn y l) = skipn (x + y) l.
Proof.
  intros y. induction y as [|y IH]; intros l; [rewrite Nat.add_0_r; auto|].
  rewrite Nat.add_succ_r. destruct l as [|a l]; [destruct x; auto|]. cbn [skipn]. apply IH.
Qed.

Lemma slice_skip {A} (b : list A) off len x rest :
  skipn off b = x ++ rest -> length x = len -> off <= length b ->
  slice b off len = Ok x /\ skipn (off + len) b = rest /\ off + len <= length b.
Proof.
  intros H <- Hoff.
  assert (Hl : length (skipn off b) = length x + length rest) by (rewrite H, app_length; auto).
  rewrite skipn_length in Hl.
  split; [|split; [|lia]].
  - rewrite slice_ok by lia. rewrite H. f_equal. apply firstn_exact. auto.
  - rewrite Nat.add_comm, <- skipn_skipn, H. apply skipn_exact. auto.
Qed.

Section Codec.
Variable E : env.
Variable P : paramset.

Let T := numMPCRounds P.
Let n := stateSizeBits P.
Let sB := stateSizeBytes P.
Let aB := andSizeBytes P.
Let dB := digestSizeBytes P.
Let kB := seedSizeBytes P.

(** Length and bytes of one round. *)
Definition rnd_len (ch : nat) : nat :=
  dB + (if is_UR (transf P) then G_len P (prv ch) else 0) + aB + 2 * kB + (if ch =? 0 then 0 else sB).

Definition enc_round (ch : nat) (o : opening) : bytes :=
  o_c3 o ++ (if is_UR (transf P) then o_g3 o else []) ++ o_comm o ++ o_seed1 o ++ o_seed2 o ++
  (if ch =? 0 then [] else o_in o).

Definition enc (cb salt : bytes) (os : nat -> opening) : bytes :=
  cb ++ salt ++ concat (map (fun k => enc_round (chalv cb k) (os k)) (seq 0 T)).

Definition sig_wf (cb salt : bytes) (os : nat -> opening) : Prop :=
  length cb = numBytes (2 * T) /\ length salt = saltSizeBytes P /\
  forall k, k < T -> chalv cb k < 3 /\ opening_wf P (chalv cb k) (os k).

Definition sig_is (s : signature) (cb salt : bytes) (os : nat -> opening) : Prop :=
  s_challengeBits s = cb /\ s_salt s = salt /\ length (s_proofs s) = T /\
  forall k pr, nth_error (s_proofs s) k = Some pr -> proof_is P (chalv cb k) pr (os k).

(** The input shares carried by the signature have zero padding bits. *)
Definition pad_ok (cb : bytes) (os : nat -> opening) : Prop :=
  forall k, k < T -> chalv cb k <> 0 -> padding_zero P (o_in (os k)).

(** Number of rounds with challenge 0. *)
Definition count0 (cb : bytes) : nat := length (filter (fun k => chalv cb k =? 0) (seq 0 T)).

Hypothesis HP1 : wfP1 P.
Let HP : wfP P := w1_wfP P HP1.

Lemma length_enc_round ch o : opening_wf P ch o -> length (enc_round ch o) = rnd_len ch.
Proof.
  intros (H1 & H2 & H3 & _ & H5 & H6 & H7). unfold enc_round, rnd_len.
  rewrite !app_length, H1, H2, H3, H5. fold dB kB aB.
  assert (length (if is_UR (transf P) then o_g3 o else []) =
          if is_UR (transf P) then G_len P (prv ch) else 0) as ->.
  { destruct (is_UR (transf P)); auto. }
  assert (length (if ch =? 0 then [] else o_in o) = if ch =? 0 then 0 else sB) as ->.
  { destruct (Nat.eqb_spec ch 0); auto. apply (H7 n0). }
  lia.
Qed.

(** The length of a round, without the case distinction on the transform. *)
Definition full_len : nat :=
  dB + aB + 2 * kB + sB + (if is_UR (transf P) then kB + aB else 0).

Lemma rnd_len_eq ch : ch < 3 ->
  rnd_len ch + (if negb (is_UR (transf P)) && (ch =? 0) then sB else 0) = full_len.
Proof.
  intros Hch. unfold rnd_len, full_len, G_len. fold kB aB sB.
  destruct (lt3 ch Hch) as [-> | [-> | ->]];
    [change (prv 0) with 2 | change (prv 1) with 0 | change (prv 2) with 1];
    destruct (is_UR (transf P)); cbn [Nat.eqb andb negb]; lia.
Qed.

Lemma length_rounds (f : nat -> nat) (g : nat -> bytes) m i :
  (forall k, i <= k < i + m -> f k < 3 /\ length (g k) = rnd_len (f k)) ->
  length (concat (map g (seq i m))) +
  (if is_UR (transf P) then 0 else sB * length (filter (fun k => f k =? 0) (seq i m))) = m * full_len.
Proof.
  revert i. induction m as [|m IH]; intros i H; cbn [seq map concat filter length].
  - destruct (is_UR (transf P)); lia.
  - rewrite app_length. destruct (H i ltac:(lia)) as [Hf Hg].
    specialize (IH (S i) ltac:(intros; apply H; lia)). rewrite Hg.
    pose proof (rnd_len_eq (f i) Hf) as Hr.
    destruct (is_UR (transf P)); cbn [negb andb] in Hr; [lia|].
    destruct (f i =? 0); cbn [length]; lia.
Qed.

Lemma length_enc cb salt os : sig_wf cb salt os ->
  length (enc cb salt os) + (if is_UR (transf P) then 0 else sB * count0 cb) =
  numBytes (2 * T) + saltSizeBytes P + T * full_len.
Proof.
  intros (H1 & H2 & H3). unfold enc, count0. rewrite !app_length, H1, H2.
  rewrite <- (length_rounds (chalv cb) (fun k => enc_round (chalv cb k) (os k)) T 0); [lia|].
  intros k Hk. destruct (H3 k ltac:(lia)) as [A B]. split; auto. apply length_enc_round; auto.
Qed.

Lemma bytesRequired_eq :
  serialize_bytesRequired P = numBytes (2 * T) + saltSizeBytes P + T * full_len.
Proof.
  unfold serialize_bytesRequired, full_len. fold T sB aB dB kB.
  destruct (is_UR (transf P)) eqn:Hur; [rewrite (w1_Gwo P HP1 Hur); fold kB aB|]; nia.
Qed.

Lemma count0_le cb : count0 cb <= T.
Proof.
  unfold count0. rewrite <- (seq_length T 0) at 2.
  induction (seq 0 T) as [|x l IH]; simpl; auto. destruct (_ =? 0); simpl; lia.
Qed.

(** ** Writing *)
Lemma serialize_round_eq cb pr o i :
  2 * i + 1 < 8 * length cb -> chalv cb i < 3 ->
  opening_wf P (chalv cb i) o -> proof_is P (chalv cb i) pr o ->
  serialize_round P cb pr i = Ok (enc_round (chalv cb i) o).
Proof.
  intros Hi Hch (H1 & H2 & H3 & _ & H5 & H6 & H7) (P1 & P2 & P3 & P4 & P5 & P6 & P7).
  unfold serialize_round. rewrite getChallenge_ok by auto. cbn [bind].
  set (ch := chalv cb i) in *. rewrite P4, slice_all by auto. cbn [bind].
  assert (Hg : (if is_UR (transf P)
          then slice (p_view3UnruhG pr) 0
                     (if ch =? 0 then UnruhGWithInputBytes P else UnruhGWithoutInputBytes P)
          else Ok []) = Ok (if is_UR (transf P) then o_g3 o else [])).
  { destruct (is_UR (transf P)) eqn:Hur; auto. rewrite (G_len_prv P HP1) by auto.
    destruct (P5 eq_refl) as [A B]. pose proof (G_len_le P HP1 (prv ch) Hur).
    rewrite slice0_ok by lia. rewrite B. auto. }
  rewrite Hg. cbn [bind]. rewrite P3, P1, P2, !slice_all by auto. cbn [bind].
  assert (Hi' : (if (ch =? 1) || (ch =? 2)
          then Ok (p_inputShare pr) else Ok []) =
          Ok (if ch =? 0 then [] else o_in o)).
  { clear - Hch P6 P7. destruct (lt3 ch Hch) as [E0 | [E0 | E0]]; rewrite E0; cbn [Nat.eqb orb]; auto.
    - rewrite P7 by lia. auto.
    - rewrite P7 by lia. auto. }
  match goal with |- bind ?x _ = _ =>
    replace x with (@Ok bytes (if ch =? 0 then [] else o_in o)) by (symmetry; exact Hi') end.
  reflexivity.
Qed.

Lemma chal_bound (cb : bytes) k : length cb = numBytes (2 * T) -> k < T -> 2 * k + 1 < 8 * length cb.
Proof. intros -> Hk. pose proof (numBytes_spec (2 * T)). lia. Qed.

Lemma serialize_eq s cb salt os buf len :
  sig_wf cb salt os -> sig_is s cb salt os -> len <= length buf ->
  serializeSignature P s buf len =
  if len <? serialize_bytesRequired P then Ok None
  else Ok (Some (length (enc cb salt os), blit_list buf 0 (enc cb salt os))).
Proof.
  intros Hwf (S1 & S2 & S3 & S4) Hlen. unfold serializeSignature.
  destruct (Nat.ltb_spec len (serialize_bytesRequired P)) as [|Hge]; auto.
  pose proof (length_enc cb salt os Hwf) as Hle. rewrite bytesRequired_eq in Hge.
  destruct Hwf as (W1 & W2 & W3).
  rewrite S1, S2, !slice_all by auto. cbn [bind]. fold T.
  rewrite (mapM_seq_pure T 0 _ (fun k => enc_round (chalv cb k) (os k))).
  2:{ intros k Hk. destruct (nth_error (s_proofs s) k) as [pr|] eqn:Hp.
      2:{ apply nth_error_None in Hp. lia. }
      rewrite (rd_some _ _ _ Hp). cbn [bind].
      destruct (W3 k ltac:(lia)) as [A B].
      apply serialize_round_eq; auto. apply chal_bound; auto; lia. }
  cbn [bind]. fold (enc cb salt os). rewrite blit_ok by lia. reflexivity.
Qed.

(** ** Reading *)
Hypothesis HE : env_bytes_ok E.

Lemma blit_uninit site k len x : length x = len -> blit (uninit E site k len) 0 x = Ok x.
Proof. intros H. apply blit0_all. rewrite uninit_len by auto. auto. Qed.

Lemma deserialize_round_spec cb sg off i o rest :
  2 * i + 1 < 8 * length cb -> chalv cb i < 3 ->
  skipn off sg = enc_round (chalv cb i) o ++ rest -> off <= length sg ->
  opening_wf P (chalv cb i) o ->
  ok (deserialize_round E P cb sg off i) (fun r =>
    match r with
    | None => chalv cb i <> 0 /\ ~ padding_zero P (o_in o)
    | Some (pr, off') =>
        proof_is P (chalv cb i) pr o /\ (chalv cb i <> 0 -> padding_zero P (o_in o)) /\
        skipn off' sg = rest /\ off' <= length sg
    end).
Proof.
  intros Hi Hch Hsk Hoff (H1 & H2 & H3 & _ & H5 & H6 & H7).
  unfold deserialize_round. rewrite getChallenge_ok by auto. cbn [bind].
  set (ch := chalv cb i) in *. unfold allocateProof.
  cbn [p_seed1 p_seed2 p_inputShare p_communicatedBits p_view3Commitment p_view3UnruhG].
  unfold enc_round in Hsk. rewrite <- !app_assoc in Hsk.
  destruct (slice_skip _ _ _ _ _ Hsk H5 Hoff) as (-> & Hk1 & Ho1). clear Hsk.
  cbn [bind]. rewrite blit_uninit by auto. cbn [bind].
  match goal with |- ok (bind ?x _) _ => assert (Hg : exists (g : bytes) off1, x = Ok (g, off1) /\
    (is_UR (transf P) = true -> length g = UnruhGWithInputBytes P /\
        firstn (G_len P (prv ch)) g = o_g3 o) /\
    off1 <= length sg /\
    skipn off1 sg = o_comm o ++ o_seed1 o ++ o_seed2 o ++ (if ch =? 0 then [] else o_in o) ++ rest) end.
  { destruct (is_UR (transf P)) eqn:Hur.
    - cbv zeta. rewrite (G_len_prv P HP1) by auto. specialize (H6 eq_refl).
      destruct (slice_skip _ _ _ _ _ Hk1 H6 Ho1) as (-> & Hk2 & Ho2). cbn [bind].
      pose proof (G_len_le P HP1 (prv ch) Hur) as Hle.
      pose proof (uninit_len E HE (site_vproof + 5) i (UnruhGWithInputBytes P)) as Hul.
      rewrite blit_ok by lia. cbn [bind]. eexists _, _. split; [reflexivity|].
      split; [|auto]. intros _. split; [rewrite length_blit0; lia|apply firstn_blit0; auto].
    - eexists _, _. split; [reflexivity|]. split; [discriminate|auto]. }
  destruct Hg as (g & off1 & -> & Hg & Ho2 & Hk2). cbn [bind].
  destruct (slice_skip _ _ _ _ _ Hk2 H3 Ho2) as (Hs3 & Hk3 & Ho3). fold aB in Hs3, Hk3, Ho3 |- *.
  rewrite Hs3. cbn [bind]. rewrite blit_uninit by auto. cbn [bind].
  destruct (slice_skip _ _ _ _ _ Hk3 H1 Ho3) as (-> & Hk4 & Ho4).
  cbn [bind]. rewrite blit_uninit by auto. cbn [bind].
  destruct (slice_skip _ _ _ _ _ Hk4 H2 Ho4) as (-> & Hk5 & Ho5).
  cbn [bind]. rewrite blit_uninit by auto. cbn [bind].
  replace ((ch =? 1) || (ch =? 2)) with (negb (ch =? 0))
    by (clear - Hch; destruct (lt3 ch Hch) as [E0 | [E0 | E0]]; rewrite E0; reflexivity).
  destruct (Nat.eqb_spec ch 0) as [Hc0|Hc0]; cbn [negb].
  - cbn [ok]. split; [|split; [contradiction|auto]].
    unfold proof_is. cbn [p_seed1 p_seed2 p_inputShare p_communicatedBits p_view3Commitment p_view3UnruhG].
    repeat (split; [solve [auto]|]). split; [apply uninit_len; auto|contradiction].
  - destruct (H7 Hc0) as [Hil Hib].
    destruct (slice_skip _ _ _ _ _ Hk5 Hil Ho5) as (-> & Hk6 & Ho6).
    cbn [bind]. rewrite blit_uninit by auto. cbn [bind].
    destruct (arePaddingBitsZero_P P (o_in o) HP) as (v & -> & Hv).
    { rewrite Hil. auto. }
    cbn [bind]. destruct v; cbn [ok].
    + split; [|split; [intros _; apply Hv; auto|auto]].
      unfold proof_is. cbn [p_seed1 p_seed2 p_inputShare p_communicatedBits p_view3Commitment p_view3UnruhG].
      repeat (split; [solve [auto]|]). auto.
    + split; auto. rewrite <- Hv. discriminate.
Qed.

Lemma deserialize_rounds_spec cb sg m : forall off i os rest,
  length cb = numBytes (2 * T) -> i + m <= T ->
  (forall k, i <= k < i + m -> chalv cb k < 3 /\ opening_wf P (chalv cb k) (os k)) ->
  skipn off sg = concat (map (fun k => enc_round (chalv cb k) (os k)) (seq i m)) ++ rest ->
  off <= length sg ->
  ok (deserialize_rounds E P m i cb sg off) (fun r =>
    match r with
    | None => exists k, i <= k < i + m /\ chalv cb k <> 0 /\ ~ padding_zero P (o_in (os k))
    | Some l =>
        (forall k, i <= k < i + m -> chalv cb k <> 0 -> padding_zero P (o_in (os k))) /\
        length l = m /\
        (forall k pr, nth_error l k = Some pr -> proof_is P (chalv cb (i + k)) pr (os (i + k)))
    end).
Proof.
  induction m as [|m IH]; intros off i os rest Hcb Him Hwf Hsk Hoff; cbn [deserialize_rounds].
  - cbn [ok length]. split; [lia|]. split; auto. intros [|k] pr; discriminate.
  - cbn [seq map concat] in Hsk. rewrite <- app_assoc in Hsk.
    destruct (Hwf i ltac:(lia)) as [Hc Ho].
    eapply ok_step; [eapply (deserialize_round_spec cb sg off i (os i)); eauto|].
    { apply chal_bound; auto; lia. }
    intros [[pr off']|] Hr; cbv beta iota in Hr.
    2:{ cbn [ok]. exists i. split; [lia|auto]. }
    destruct Hr as (Hpr & Hpad & Hsk' & Hoff').
    eapply ok_step; [apply (IH off' (S i) os rest); auto; [lia|intros; apply Hwf; lia]|].
    intros [l|] Hl; cbv beta iota in Hl; cbn [ok].
    + destruct Hl as (Hp & Hlen & Hk). split; [|split].
      * intros k Hk'. destruct (Nat.eq_dec k i) as [->|]; auto. apply Hp. lia.
      * cbn [length]. lia.
      * intros [|k] pr' Hn; cbn [nth_error] in Hn.
        -- injection Hn as <-. rewrite Nat.add_0_r. auto.
        -- rewrite <- Nat.add_succ_comm. apply Hk; auto.
    + destruct Hl as (k & Hk & Hk'). exists k. split; [lia|auto].
Qed.

(** Cutting an arbitrary string into openings. *)
Lemma cut_opening ch sg off :
  ch < 3 -> bytes_ok sg -> off + rnd_len ch <= length sg ->
  exists o rest, skipn off sg = enc_round ch o ++ rest /\ opening_wf P ch o /\
    skipn (off + rnd_len ch) sg = rest.
Proof.
  intros Hch Hb Hl. unfold rnd_len in Hl.
  assert (Hcut : forall b len, length (skipn b sg) >= len -> exists x r,
    skipn b sg = x ++ r /\ length x = len /\ bytes_ok x /\ r = skipn (b + len) sg).
  { intros b len Hbl. exists (firstn len (skipn b sg)), (skipn len (skipn b sg)).
    split; [symmetry; apply firstn_skipn|]. split; [rewrite firstn_length; lia|].
    split; [apply bytes_ok_slice; auto|]. rewrite skipn_skipn. f_equal. lia. }
  set (gl := if is_UR (transf P) then G_len P (prv ch) else 0) in *.
  set (il := if ch =? 0 then 0 else sB) in *.
  destruct (Hcut off dB) as (c3 & r1 & E1 & L1 & _ & R1); [rewrite skipn_length; lia|].
  destruct (Hcut (off + dB) gl) as (g3 & r2 & E2 & L2 & _ & R2); [rewrite skipn_length; lia|].
  destruct (Hcut (off + dB + gl) aB) as (cm & r3 & E3 & L3 & B3 & R3); [rewrite skipn_length; lia|].
  destruct (Hcut (off + dB + gl + aB) kB) as (s1 & r4 & E4 & L4 & _ & R4); [rewrite skipn_length; lia|].
  destruct (Hcut (off + dB + gl + aB + kB) kB) as (s2 & r5 & E5 & L5 & _ & R5); [rewrite skipn_length; lia|].
  destruct (Hcut (off + dB + gl + aB + kB + kB) il) as (inp & r6 & E6 & L6 & B6 & R6);
    [rewrite skipn_length; lia|].
  exists (mkOpening s1 s2 inp cm c3 g3), r6.
  split; [|split].
  - unfold enc_round. cbn [o_c3 o_g3 o_comm o_seed1 o_seed2 o_in]. rewrite <- !app_assoc.
    rewrite E1, R1, E2, R2, E3, R3, E4, R4, E5, R5, E6.
    assert ((if is_UR (transf P) then g3 else []) = g3) as ->.
    { unfold gl in L2. destruct (is_UR (transf P)); auto. destruct g3; auto; discriminate. }
    assert ((if ch =? 0 then [] else inp) = inp) as ->.
    { unfold il in L6. destruct (ch =? 0); auto. destruct inp; auto; discriminate. }
    reflexivity.
  - unfold opening_wf. cbn [o_c3 o_g3 o_comm o_seed1 o_seed2 o_in].
    split; [auto|]. split; [auto|]. split; [auto|]. split; [auto|]. split; [auto|].
    split.
    + intros Hur. unfold gl in L2. rewrite Hur in L2. auto.
    + intros Hne. split; auto. unfold il in L6. destruct (Nat.eqb_spec ch 0); auto. contradiction.
  - rewrite R6. f_equal. unfold rnd_len. fold gl il. lia.
Qed.

Definition sum_len (f : nat -> nat) (i m : nat) : nat :=
  fold_right (fun k a => rnd_len (f k) + a) 0 (seq i m).

Lemma cut_openings (f : nat -> nat) sg m : forall off i,
  (forall k, i <= k < i + m -> f k < 3) -> bytes_ok sg -> off + sum_len f i m <= length sg ->
  exists os rest,
    skipn off sg = concat (map (fun k => enc_round (f k) (os k)) (seq i m)) ++ rest /\
    (forall k, i <= k < i + m -> opening_wf P (f k) (os k)).
Proof.
  unfold sum_len. induction m as [|m IH]; intros off i Hf Hb Hl; cbn [seq fold_right map concat] in *.
  - exists (fun _ => mkOpening [] [] [] [] [] []), (skipn off sg). split; auto. lia.
  - destruct (cut_opening (f i) sg off) as (o & r & E1 & W & R); auto; [apply Hf; lia|lia|].
    destruct (IH (off + rnd_len (f i)) (S i)) as (os & rest & E2 & W2); auto;
      [intros; apply Hf; lia|lia|].
    exists (fun k => if k =? i then o else os k), rest. split.
    + rewrite Nat.eqb_refl, E1. rewrite R in E2. rewrite E2, app_assoc. do 2 f_equal. f_equal.
      apply map_ext_in. intros k Hk. apply in_seq in Hk.
      destruct (Nat.eqb_spec k i); [lia|auto].
    + intros k Hk. destruct (Nat.eqb_spec k i) as [->|]; auto. apply W2. lia.
Qed.

(** ** The reader *)
Lemma isChallengeValid_spec cb : length cb = numBytes (2 * T) ->
  exists v, isChallengeValid P cb = Ok v /\ (v = true <-> forall k, k < T -> chalv cb k < 3).
Proof.
  intros Hl. unfold isChallengeValid. fold T.
  assert (H : forall m i, i + m <= T ->
    exists v, isChallengeValid_from m i cb = Ok v /\
              (v = true <-> forall k, i <= k < i + m -> chalv cb k < 3)).
  { induction m as [|m IH]; intros i Hi; cbn [isChallengeValid_from].
    - exists true. split; auto. split; auto. lia.
    - rewrite getChallenge_ok by (apply chal_bound; auto; lia). cbn [bind].
      destruct (Nat.ltb_spec 2 (chalv cb i)).
      + exists false. split; auto. split; [discriminate|]. intros Hk. specialize (Hk i ltac:(lia)). lia.
      + destruct (IH (S i) ltac:(lia)) as (v & Hv & Hiff). exists v. split; auto.
        rewrite Hiff. split; intros Hk k Hk'.
        * destruct (Nat.eq_dec k i) as [->|]; [lia|]. apply Hk. lia.
        * apply Hk. lia. }
  destruct (H T 0 ltac:(lia)) as (v & Hv & Hiff). exists v. split; auto. rewrite Hiff.
  split; intros Hk k Hk'; apply Hk; lia.
Qed.

Lemma chalv_firstn sg c k : length c = numBytes (2 * T) -> c = firstn (numBytes (2 * T)) sg -> k < T ->
  chalv sg k = chalv c k.
Proof.
  intros Hl -> Hk. pose proof (numBytes_spec (2 * T)). unfold chalv.
  rewrite !bit_firstn by lia. reflexivity.
Qed.

Definition inputs_len (cb : bytes) : nat :=
  fold_right (fun k a => (if (chalv cb k =? 1) || (chalv cb k =? 2) then sB else 0) + a) 0 (seq 0 T).

Lemma computeInputShareSize_eq sg : numBytes (2 * T) <= length sg ->
  computeInputShareSize P sg = Ok (inputs_len sg).
Proof.
  intros Hl. unfold computeInputShareSize, inputs_len. fold T.
  pose proof (numBytes_spec (2 * T)) as Hn.
  assert (H : forall m i a, i + m <= T ->
    for_loop m i (fun i size => challenge <- getChallenge sg i ;;
       Ok (if (challenge =? 1) || (challenge =? 2) then size + stateSizeBytes P else size)) a =
    Ok (fold_right (fun k a => (if (chalv sg k =? 1) || (chalv sg k =? 2) then sB else 0) + a) 0
          (seq i m) + a)).
  { induction m as [|m IH]; intros i a Hi; cbn [for_loop seq fold_right]; auto.
    rewrite getChallenge_ok by lia. cbn [bind]. rewrite IH by lia. f_equal. fold sB.
    destruct ((chalv sg i =? 1) || (chalv sg i =? 2)); lia. }
  rewrite H by lia. f_equal. lia.
Qed.

Lemma bytesExpected_FS cb : is_UR (transf P) = false -> (forall k, k < T -> chalv cb k < 3) ->
  T * (2 * kB + aB + dB) + inputs_len cb = sum_len (chalv cb) 0 T.
Proof.
  intros Hur Hv. unfold inputs_len, sum_len.
  assert (H : forall m i, i + m <= T ->
    m * (2 * kB + aB + dB) + fold_right (fun k a => (if (chalv cb k =? 1) || (chalv cb k =? 2) then sB else 0) + a) 0 (seq i m)
    = fold_right (fun k a => rnd_len (chalv cb k) + a) 0 (seq i m)).
  { induction m as [|m IH]; intros i Hi; cbn [seq fold_right]; [lia|].
    rewrite <- (IH (S i)) by lia. unfold rnd_len. rewrite Hur.
    specialize (Hv i ltac:(lia)).
    destruct (lt3 _ Hv) as [-> | [-> | ->]]; cbn [Nat.eqb orb]; lia. }
  apply H. lia.
Qed.

Lemma sum_len_le f m : forall i, (forall k, i <= k < i + m -> f k < 3) ->
  sum_len f i m <= m * full_len /\ (is_UR (transf P) = true -> sum_len f i m = m * full_len).
Proof.
  unfold sum_len. induction m as [|m IH]; intros i Hf; cbn [seq fold_right]; [lia|].
  destruct (IH (S i) ltac:(intros; apply Hf; lia)) as [H1 H2].
  pose proof (rnd_len_eq (f i) (Hf i ltac:(lia))) as Hr.
  split; [lia|]. intros Hur. rewrite H2 by auto. rewrite Hur in Hr. cbn [negb andb] in Hr. lia.
Qed.

(** The strings long enough for reading: no condition for FS and full sets. *)
Definition long_enough (sg : bytes) : Prop :=
  is_UR (transf P) = true -> numBytes (2 * T) + saltSizeBytes P + T * full_len <= length sg.

Lemma deserialize_spec sg :
  bytes_ok sg -> long_enough sg ->
  ok (deserializeSignature E P sg) (fun r =>
    match r with
    | None => True
    | Some s => exists cb salt os rest,
        sg = enc cb salt os ++ rest /\ bytes_ok cb /\ sig_wf cb salt os /\ pad_ok cb os /\
        sig_is s cb salt os
    end).
Proof.
  intros Hb Hlong. unfold deserializeSignature. fold T.
  destruct (Nat.ltb_spec (length sg) (numBytes (2 * T))) as [|Hge]; [exact I|].
  rewrite computeInputShareSize_eq by auto. cbn [bind].
  destruct (Nat.ltb_spec (length sg)
    (numBytes (2 * T) + saltSizeBytes P
      + T * (2 * seedSizeBytes P + andSizeBytes P + digestSizeBytes P) + inputs_len sg
      + (if is_UR (transf P) then UnruhGWithoutInputBytes P * T else 0))) as [|Hlen]; [exact I|].
  rewrite slice0_ok by auto. cbn [bind]. set (cb := firstn (numBytes (2 * T)) sg).
  assert (Hcl : length cb = numBytes (2 * T)) by (unfold cb; rewrite firstn_length; lia).
  destruct (isChallengeValid_spec cb Hcl) as (v & -> & Hv). cbn [bind].
  destruct v; [|exact I]. cbn [negb]. assert (Hv3 := proj1 Hv eq_refl). clear Hv.
  assert (Hil : inputs_len sg = inputs_len cb).
  { unfold inputs_len.
    assert (H : forall l, (forall k, In k l -> k < T) ->
       fold_right (fun k a => (if (chalv sg k =? 1) || (chalv sg k =? 2) then sB else 0) + a) 0 l =
       fold_right (fun k a => (if (chalv cb k =? 1) || (chalv cb k =? 2) then sB else 0) + a) 0 l).
    { induction l as [|k l IH]; intros H; cbn [fold_right]; auto.
      rewrite IH by (intros; apply H; right; auto).
      rewrite (chalv_firstn sg cb k) by (auto; apply H; left; auto). auto. }
    apply H. intros k Hk. apply in_seq in Hk. lia. }
  rewrite Hil in Hlen. fold kB aB dB in Hlen.
  assert (Htot : numBytes (2 * T) + saltSizeBytes P + sum_len (chalv cb) 0 T <= length sg).
  { destruct (is_UR (transf P)) eqn:Hur.
    - destruct (sum_len_le (chalv cb) T 0) as [Hs _]; [intros; apply Hv3; lia|].
      specialize (Hlong Hur). lia.
    - rewrite <- bytesExpected_FS by auto. lia. }
  rewrite slice_ok by lia. cbn [bind].
  set (salt := firstn (saltSizeBytes P) (skipn (numBytes (2 * T)) sg)).
  destruct (cut_openings (chalv cb) sg T (numBytes (2 * T) + saltSizeBytes P) 0)
    as (os & rest & Hsk & Hwf); auto.
  { intros; apply Hv3; lia. }
  eapply ok_step; [eapply deserialize_rounds_spec; eauto; [|lia]|].
  { intros k Hk. split; [apply Hv3|apply Hwf]; lia. }
  intros [l|] Hl; [|exact I]. cbv beta iota in Hl. cbn [ok].
  destruct Hl as (Hp & Hll & Hpr).
  exists cb, salt, os, rest. split.
  { unfold enc. rewrite <- !app_assoc, <- Hsk. rewrite (Nat.add_comm _ (saltSizeBytes P)), <- skipn_skipn.
    unfold salt. rewrite firstn_skipn. unfold cb. rewrite firstn_skipn. auto. }
  split; [apply Forall_firstn; auto|].
  split; [split; [auto|split]|split].
  - unfold salt. rewrite firstn_length, skipn_length. lia.
  - intros k Hk. split; [apply Hv3|apply Hwf]; lia.
  - intros k Hk. apply Hp. lia.
  - split; [reflexivity|]. split; [reflexivity|]. split; auto.
Qed.

(** Reading a given encoding, with anything after it. *)
Lemma deserialize_enc cb salt os rest :
  sig_wf cb salt os ->
  ok (deserializeSignature E P (enc cb salt os ++ rest)) (fun r =>
    match r with
    | None => ~ pad_ok cb os
    | Some s => sig_is s cb salt os /\ pad_ok cb os
    end).
Proof.
  intros Hwf. pose proof (length_enc cb salt os Hwf) as Hlen.
  destruct Hwf as (W1 & W2 & W3). set (sg := enc cb salt os ++ rest).
  assert (Hsg : length sg = length (enc cb salt os) + length rest) by (unfold sg; apply app_length).
  assert (Hcount : forall m i, i + m <= T ->
     length (concat (map (fun k => enc_round (chalv cb k) (os k)) (seq i m))) = sum_len (chalv cb) i m).
  { unfold sum_len. induction m as [|m IH]; intros i Hi; cbn [seq map concat fold_right]; auto.
    rewrite app_length, IH by lia. f_equal. apply length_enc_round. apply W3. lia. }
  assert (Hle : length (enc cb salt os) = numBytes (2 * T) + saltSizeBytes P + sum_len (chalv cb) 0 T).
  { unfold enc. rewrite !app_length, W1, W2, Hcount by lia. lia. }
  unfold deserializeSignature. fold T.
  destruct (Nat.ltb_spec (length sg) (numBytes (2 * T))) as [|Hge]; [lia|].
  rewrite computeInputShareSize_eq by auto. cbn [bind].
  assert (Hcb : firstn (numBytes (2 * T)) sg = cb).
  { unfold sg, enc. rewrite <- !app_assoc. apply firstn_exact. auto. }
  assert (Hil : inputs_len sg = inputs_len cb).
  { unfold inputs_len.
    assert (H : forall l, (forall k, In k l -> k < T) ->
       fold_right (fun k a => (if (chalv sg k =? 1) || (chalv sg k =? 2) then sB else 0) + a) 0 l =
       fold_right (fun k a => (if (chalv cb k =? 1) || (chalv cb k =? 2) then sB else 0) + a) 0 l).
    { induction l as [|k l IH]; intros H; cbn [fold_right]; auto.
      rewrite IH by (intros; apply H; right; auto).
      rewrite (chalv_firstn sg cb k) by (auto; apply H; left; auto). auto. }
    apply H. intros k Hk. apply in_seq in Hk. lia. }
  rewrite Hil.
  assert (Hexp : numBytes (2 * T) + saltSizeBytes P
      + T * (2 * seedSizeBytes P + andSizeBytes P + digestSizeBytes P) + inputs_len cb
      + (if is_UR (transf P) then UnruhGWithoutInputBytes P * T else 0) <= length sg).
  { fold kB aB dB. destruct (is_UR (transf P)) eqn:Hur.
    - rewrite (w1_Gwo P HP1 Hur). fold kB aB.
      destruct (sum_len_le (chalv cb) T 0) as [_ Hs]; [intros; apply W3; lia|].
      rewrite (Hs Hur) in Hle. unfold full_len in Hle. rewrite Hur in Hle.
      assert (Hin : inputs_len cb <= T * sB).
      { unfold inputs_len. rewrite <- (seq_length T 0) at 2.
        induction (seq 0 T) as [|k l IH]; cbn [fold_right length]; [lia|].
        destruct (_ || _); lia. }
      nia.
    - rewrite <- bytesExpected_FS in Hle by (auto; intros; apply W3; auto). lia. }
  destruct (Nat.ltb_spec (length sg) (numBytes (2 * T) + saltSizeBytes P
      + T * (2 * seedSizeBytes P + andSizeBytes P + digestSizeBytes P) + inputs_len cb
      + (if is_UR (transf P) then UnruhGWithoutInputBytes P * T else 0))) as [|_]; [lia|].
  rewrite slice0_ok by auto. rewrite Hcb. cbn [bind].
  destruct (isChallengeValid_spec cb W1) as (v & -> & Hv). cbn [bind].
  rewrite (proj2 Hv) by (intros; apply W3; auto). cbn [negb].
  assert (Hsk0 : skipn (numBytes (2 * T)) sg =
    salt ++ concat (map (fun k => enc_round (chalv cb k) (os k)) (seq 0 T)) ++ rest).
  { unfold sg, enc. rewrite <- !app_assoc. apply skipn_exact. auto. }
  destruct (slice_skip _ _ _ _ _ Hsk0 W2 Hge) as (-> & Hsk & Hoff). cbn [bind].
  eapply ok_step; [eapply deserialize_rounds_spec; eauto|].
  { intros k Hk. apply W3. lia. }
  intros [l|] Hl; cbv beta iota in Hl; cbn [ok].
  - destruct Hl as (Hp & Hll & Hpr). split.
    + split; [reflexivity|]. split; [reflexivity|]. split; auto.
    + intros k Hk. apply Hp. lia.
  - destruct Hl as (k & Hk & Hc & Hn). intros Hpad. apply Hn, Hpad; auto. lia.
Qed.

End Codec.
