(** The challenge of KkwSpec.v is computed by expandChallengeHash. *)

From Coq Require Import List NArith Arith Bool Lia ZifyBool ZifyNat ZifyN.
From Verif Require Import Base Params Env Spec Tree Picnic3 BaseFacts ParamFacts UtilFacts TreeReveal
  P3Bytes P3Tape P3Chal ZkbppSpec ZkbppProofs KkwSpec KkwTree.
Import ListNotations.

Definition bval (b : bytes) (p : nat) : nat := if bit b p then 1 else 0.

Lemma horner b p k : forall a,
  fold_right (fun j c => bval b (p + j) + 2 * c) 0 (seq a (S k)) =
  fold_right (fun j c => bval b (p + j) + 2 * c) 0 (seq a k) + bval b (p + (a + k)) * 2 ^ k.
Proof.
  induction k as [|k IH]; intros a.
  - cbn [seq fold_right]. rewrite (Nat.add_0_r a). change (2 ^ 0) with 1. lia.
  - change (seq a (S (S k))) with (a :: seq (S a) (S k)). cbn [fold_right]. rewrite IH.
    change (seq a (S k)) with (a :: seq (S a) k). cbn [fold_right].
    rewrite Nat.pow_succ_r'. replace (S a + k) with (a + S k) by lia.
    generalize (bval b (p + (a + S k))). generalize (2 ^ k). intros. nia.
Qed.

Lemma mapM_seq_map {A} (f : nat -> res A) (g : nat -> A) k : forall i l,
  (forall j c, i <= j < i + k -> f j = Ok c -> c = g j) ->
  mapM_seq k i f = Ok l -> l = map g (seq i k).
Proof.
  induction k as [|k IH]; intros i l Hf H; cbn [mapM_seq seq map] in *; [congruence|].
  destruct (f i) as [c| | |] eqn:Ec; cbn [bind] in H; try discriminate.
  apply Hf in Ec; [|lia]. subst c.
  destruct (mapM_seq k (S i) f) as [r| | |] eqn:Er; cbn [bind] in H; try discriminate.
  apply IH in Er; [congruence|]. intros j c Hj. apply Hf. lia.
Qed.

Section C.
Variable E : env.
Variable P : paramset.
Variable sp : sparams.
Hypothesis HP3 : wfP3 P.
Hypothesis CF : conforms P sp.
Hypothesis HE : env_bytes_ok E.
Let u := numOpenedRounds P.
Let T := numMPCRounds P.
Let dg := digestSizeBytes P.
Let HB_eq : octets (sp_H sp) = dg := eq_sym (cf_H P sp CF).

Lemma chunk_eq w h i c :
  for_loop w 0 (fun j c =>
            b <- getBit h (i * w + j) ;;
            let c := c + (if (b : bool) then 2 ^ j else 0) in
            _ <- c_assert (c <? 2 ^ w) ;;
            Ok c) 0 = Ok c -> c = chunk w h i.
Proof.
  intros H. apply for_fold with (g := fun c j => c + bval h (i * w + j) * 2 ^ j) in H.
  2:{ intros j s s' _ Hs.
      assert (Hg : getBit h (i * w + j) = Ok (bit h (i * w + j))).
      { destruct (Nat.lt_ge_cases ((i * w + j) / 8) (length h)) as [Hlt|Hge]; [apply getBit_ok; auto|].
        exfalso. revert Hs. unfold getBit, rd. rewrite (proj2 (nth_error_None _ _) Hge). discriminate. }
      rewrite Hg in Hs. cbn [bind] in Hs. cbv zeta in Hs.
      destruct (_ <? 2 ^ w); cbn [c_assert bind] in Hs; [|discriminate]. injection Hs as <-. f_equal.
      unfold bval. destruct (bit h (i * w + j)); lia. }
  rewrite H. unfold chunk. fold (bval h). clear H.
  change (fun j a => (if bit h (i * w + j) then 1 else 0) + 2 * a) with (fun j c => bval h (i * w + j) + 2 * c).
  generalize (i * w). intros p. induction w as [|w IH]; [reflexivity|].
  rewrite horner, <- IH. rewrite seq_S, fold_left_app. cbn [fold_left]. reflexivity.
Qed.

Lemma chunks_eq w h cap l : bitsToChunks w h dg cap = Ok l -> l = chunks sp w h.
Proof.
  unfold bitsToChunks. destruct (w <=? dg * 8); cbn [c_assert bind]; [|discriminate].
  destruct (0 <? w); cbn [guard bind]; [|discriminate].
  destruct (dg * 8 / w <=? cap); cbn [guard bind]; [|discriminate].
  unfold chunks. rewrite HB_eq, (Nat.mul_comm 8 dg). generalize (dg * 8 / w). intros k.
  apply mapM_seq_map. intros i c _. apply chunk_eq.
Qed.

Lemma collect_C_full l cs : u <= length l -> fold_left (collect_C sp) cs l = l.
Proof.
  induction cs as [|c cs IH]; intros H; auto. cbn [fold_left]. unfold collect_C at 2.
  rewrite <- (cf_u P sp CF). fold u. replace (length l <? u) with false by lia. cbn [andb]. auto.
Qed.

Lemma collect_P_full l cs : u <= length l -> fold_left (collect_P sp) cs l = l.
Proof.
  induction cs as [|c cs IH]; intros H; auto. cbn [fold_left]. unfold collect_P at 2.
  rewrite <- (cf_u P sp CF). fold u. replace (length l <? u) with false by lia. cbn [andb]. auto.
Qed.

Lemma scan_C_eq cs : forall l l', length l < u -> scan_C P cs l = Ok l' -> l' = fold_left (collect_C sp) cs l.
Proof.
  induction cs as [|c cs IH]; intros l l' Hl H; cbn [scan_C fold_left] in *; [congruence|].
  fold T u in H.
  assert (Hc : forall l1, (if c <? T then appendUnique P l c else Ok l) = Ok l1 -> l1 = collect_C sp l c).
  { intros l1. unfold collect_C, appendUnique. rewrite <- (cf_u P sp CF), <- (cf_T P sp CF). fold T u.
    replace (length l <? u) with true by lia. rewrite member_contains. cbn [andb guard bind].
    destruct (c <? T); cbn [andb]; [|congruence]. destruct (contains l c); cbn [negb]; congruence. }
  destruct (if c <? T then appendUnique P l c else Ok l) as [l1| | |] eqn:E1; cbn [bind] in H; try discriminate.
  rewrite <- (Hc l1 eq_refl).
  assert (Hle : length l1 <= u).
  { rewrite (Hc l1 eq_refl). unfold collect_C. destruct (_ && _ && _); [rewrite app_length; cbn|]; lia. }
  destruct (Nat.eqb_spec (length l1) u) as [He|He]; [|apply IH; auto; lia].
  rewrite collect_C_full by lia. congruence.
Qed.

Lemma scan_P_eq cs : forall l l', length l < u -> scan_P P cs l = Ok l' -> l' = fold_left (collect_P sp) cs l.
Proof.
  induction cs as [|c cs IH]; intros l l' Hl H; cbn [scan_P fold_left] in *; [congruence|].
  fold u in H.
  assert (Hc : collect_P sp l c = if c <? numMPCParties P then l ++ [c] else l).
  { unfold collect_P. rewrite <- (cf_u P sp CF), <- (cf_N P sp CF). fold u.
    replace (length l <? u) with true by lia. reflexivity. }
  rewrite Hc. replace (length l <? u) with true in H by lia. cbn [guard bind] in H.
  assert (Hh : (let l1 := if c <? numMPCParties P then l ++ [c] else l in
               if length l1 =? u then Ok l1 else scan_P P cs l1) = Ok l').
  { destruct (c <? numMPCParties P); exact H. }
  clear H. cbv zeta in Hh. set (l1 := if c <? numMPCParties P then _ else _) in *.
  assert (Hle : length l1 <= u) by (unfold l1; destruct (c <? _); [rewrite app_length; cbn|]; lia).
  destruct (Nat.eqb_spec (length l1) u) as [He|He]; [|apply IH; auto; lia].
  rewrite collect_P_full by lia. congruence.
Qed.

Lemma loop_eq scan f w cap (I : list nat -> Prop) :
  0 < w <= 8 * dg -> dg * 8 / w <= cap ->
  (forall chunks l, I l -> length l < u -> ok (scan chunks l) I) ->
  (forall cs l l', length l < u -> scan cs l = Ok l' -> l' = fold_left f cs l) ->
  forall fuel h l, length h = dg -> I l ->
  expand_loop E P fuel w cap scan h l =
  match collect E sp f w fuel h l with Some r => Ok r | None => NoFuel end /\
  (forall r, collect E sp f w fuel h l = Some r -> length (snd r) = dg).
Proof.
  intros Hw Hcap HI Hs. induction fuel as [|fuel IH]; intros h l Hh Hl0; cbn [expand_loop collect];
    rewrite <- (cf_u P sp CF); fold u dg; rewrite Nat.leb_antisym; destruct (Nat.ltb_spec (length l) u) as [Hl|Hl]; cbn [negb];
    try (split; [reflexivity|intros r [= <-]; exact Hh]).
  pose proof (bitsToChunks_ok P w h cap Hw ltac:(fold dg; lia) Hcap) as Hk. apply ok_ex in Hk.
  destruct Hk as (cs & Ec & _). fold dg in Ec. rewrite Ec. cbn [bind].
  apply chunks_eq in Ec. subst cs.
  pose proof (HI (chunks sp w h) l Hl0 Hl) as Hk. apply ok_ex in Hk. destruct Hk as (l' & El & Hl').
  rewrite El. cbn [bind]. apply Hs in El; auto. subst l'. rewrite slice0_ok by (fold dg; lia). cbn [bind].
  rewrite firstn_all2 by (fold dg; lia). change HASH_PREFIX_1 with (Some 1%N).
  pose proof (Hi_eq E P sp CF 1 h) as Hh1. fold dg in Hh1. rewrite Hh1.
  apply IH; auto. apply hash_length. auto.
Qed.

Lemma challenge_eq fuel h : length h = dg ->
  expandChallengeHash E P fuel h = match challenge E sp fuel h with Some r => Ok r | None => NoFuel end.
Proof.
  intros Hh. destruct (bits_facts P HP3) as [HC HP]. unfold expandChallengeHash, challenge.
  rewrite <- (cf_T P sp CF), <- (cf_N P sp CF). fold T dg. fold dg T in HC, HP.
  pose proof (w3_dg P HP3) as Hd. pose proof (w3_T P HP3) as HT. pose proof (w3_u P HP3) as Hu. fold dg T in Hd, HT, Hu.
  assert (HB : (N.of_nat T < 2 ^ 32)%N) by (cbn; lia).
  rewrite <- (ceil_log2_nat_spec T) by (auto; lia).
  replace (Nat.log2_up (numMPCParties P)) with (ceil_log2_nat (numMPCParties P)) by (rewrite (w3_N P HP3); reflexivity).
  set (bC := ceil_log2_nat T) in *. set (bP := ceil_log2_nat (numMPCParties P)) in *.
  replace (0 <? Nat.min bC bP) with true by lia. cbn [guard bind].
  rewrite slice0_ok by lia. cbn [bind]. rewrite firstn_all2 by lia.
  unfold MAX_DIGEST_SIZE. replace (dg <=? 64) with true by lia. cbn [guard bind].
  assert (Hcap : forall b, Nat.min bC bP <= b -> 0 < b -> dg * 8 / b <= dg * 8 / Nat.min bC bP).
  { intros b Hb Hb0. apply Nat.div_le_compat_l. lia. }
  destruct (loop_eq (scan_C P) (collect_C sp) bC (dg * 8 / Nat.min bC bP) (C_inv P) HC (Hcap bC ltac:(lia) ltac:(lia)))
    with (fuel := fuel) (h := h) (l := @nil nat) as [-> H2]; auto.
  - intros. apply scan_C_ok; auto.
  - apply scan_C_eq.
  - repeat split; [constructor|constructor|cbn; lia].
  - destruct (collect E sp (collect_C sp) bC fuel h []) as [[C h']|]; cbn [bind]; [|reflexivity].
    specialize (H2 _ eq_refl). cbn [snd] in H2.
    destruct (loop_eq (scan_P P) (collect_P sp) bP (dg * 8 / Nat.min bC bP) (P_inv P) HP (Hcap bP ltac:(lia) ltac:(lia)))
      with (fuel := fuel) (h := h') (l := @nil nat) as [-> H3]; auto.
    + intros. apply scan_P_ok; auto.
    + apply scan_P_eq.
    + repeat split; [constructor|cbn; lia].
    + destruct (collect E sp (collect_P sp) bP fuel h' []) as [[L h'']|]; reflexivity.
Qed.

Lemma position_indexOf C t i : indexOf C t = Ok i -> i = position t C.
Proof.
  revert i; induction C as [|x C IH]; intros i H; cbn [indexOf position] in *; [discriminate|].
  rewrite (Nat.eqb_sym t x). destruct (x =? t); [congruence|].
  destruct (indexOf C t) as [j| | |]; cbn [bind] in H; try discriminate. rewrite <- (IH j eq_refl). congruence.
Qed.

Lemma unopened_eq C L t : chal_wf P C L -> In t C -> unopened C L t = party C L t.
Proof.
  intros Hw Ht. destruct (unopened_party_ok P C L t Hw Ht) as [H _]. unfold unopened. revert H.
  unfold unopened_party. destruct (indexOf C t) as [i| | |] eqn:Ei; cbn [bind]; try discriminate.
  apply position_indexOf in Ei. subst i. intros H. apply rd_inv in H. apply nth_error_nth. exact H.
Qed.

Lemma not_in_eq C : not_in sp C = others P C.
Proof. unfold not_in, others. rewrite (cf_T P sp CF). reflexivity. Qed.
End C.
