(** Verification with a ZKB++ parameter set computes zkbpp_verify. *)

From Coq Require Import List NArith Arith Bool Btauto Lia ZifyBool ZifyNat ZifyN.
From Verif Require Import Base Params Env Spec LowMC Picnic1 Api BaseFacts ParamFacts ApiFacts LowMCFacts
  LowMCInj Hint ZkbMpc Zkb ZkbRound ZkbSign ZkbChal ZkbCodec ZkbTop ApiSpec SigSpec ZkbApi
  ZkbppSpec ZkbppProofs ZkbppProofs2 ZkbppProofs3.
Import ListNotations.

Lemma read_app k x y : length x = k -> read k (x ++ y) = Some (x, y).
Proof.
  intros <-. unfold read. rewrite app_length. replace (_ <=? _) with true by lia.
  rewrite firstn_exact, skipn_exact by auto. reflexivity.
Qed.

Lemma read_inv k b x y : read k b = Some (x, y) -> b = x ++ y /\ length x = k.
Proof.
  unfold read. destruct (Nat.leb_spec k (length b)); [|discriminate]. intros [= <- <-].
  split; [symmetry; apply firstn_skipn|]. rewrite firstn_length. lia.
Qed.

Lemma zero_padding_iff k b :
  zero_padding k b = true <-> forall i, k <= i < 8 * octets k -> bit b i = false.
Proof.
  unfold zero_padding. rewrite forallb_forall. split.
  - intros H i Hi. specialize (H i). rewrite in_seq in H. specialize (H ltac:(lia)).
    destruct (bit b i); [discriminate|auto].
  - intros H i Hi. apply in_seq in Hi. rewrite H by lia. reflexivity.
Qed.

Section Z.
Variable E : env.
Variable P : paramset.
Variable sp : sparams.
Hypothesis HP1 : wfP1 P.
Hypothesis CF : conforms P sp.
Hypothesis HE : env_bytes_ok E.
Hypothesis HC : constants_ok E P.
Let HP : wfP P := w1_wfP P HP1.

Let L := lowmc_of E P.
Let n := stateSizeBits P.
Let m := numSboxes P.
Let R := numRounds P.
Let T := numMPCRounds P.
Let sB := stateSizeBytes P.
Let aB := andSizeBytes P.

(** ** Parsing *)
Definition zo (ch : nat) (o : opening) : zopen :=
  mkZopen (o_c3 o) (if is_UR (transf P) then o_g3 o else []) (o_comm o) (o_seed1 o) (o_seed2 o)
          (if ch =? 0 then [] else o_in o).

Lemma pad_iff b : zero_padding (sp_n sp) b = true <-> padding_zero P b.
Proof.
  rewrite zero_padding_iff. unfold padding_zero. rewrite (cf_n P sp CF), (cf_nB P sp CF). reflexivity.
Qed.

Lemma read_round_enc ch o rest :
  opening_wf P ch o -> (ch <> 0 -> padding_zero P (o_in o)) ->
  read_round sp ch (enc_round P ch o ++ rest) = Some (zo ch o, rest).
Proof.
  intros (H1 & H2 & H3 & _ & H5 & H6 & H7) Hp. unfold read_round, enc_round.
  rewrite <- !app_assoc. rewrite read_app by (rewrite H5; apply (cf_H P sp CF)).
  rewrite <- (cf_UR P sp CF).
  assert (Hg : forall r, (if is_UR (transf P) then read (G_length sp (party_before ch))
      ((if is_UR (transf P) then o_g3 o else []) ++ r) else
      Some ([], (if is_UR (transf P) then o_g3 o else []) ++ r)) =
      Some (if is_UR (transf P) then o_g3 o else [], r)).
  { intros r. destruct (is_UR (transf P)); auto. apply read_app. rewrite <- (G_len_eq P sp CF).
    apply H6. auto. }
  rewrite Hg. rewrite read_app by (rewrite H3; apply (cf_aB P sp CF)).
  rewrite read_app by (rewrite H1; apply (cf_S P sp CF)).
  rewrite read_app by (rewrite H2; apply (cf_S P sp CF)).
  destruct (Nat.eqb_spec ch 0) as [->|Hn]; cbn [app orb]; [reflexivity|].
  destruct (H7 Hn) as [Hl _].
  rewrite read_app by (rewrite Hl; apply (cf_nB P sp CF)).
  rewrite (proj2 (pad_iff _) (Hp Hn)). unfold zo. replace (ch =? 0) with false by lia. reflexivity.
Qed.

Lemma bytes_ok_app_l a b : bytes_ok (a ++ b) -> bytes_ok a.
Proof. unfold bytes_ok. rewrite Forall_app. tauto. Qed.
Lemma bytes_ok_app_r a b : bytes_ok (a ++ b) -> bytes_ok b.
Proof. unfold bytes_ok. rewrite Forall_app. tauto. Qed.

Lemma read_round_inv ch b z rest : bytes_ok b ->
  read_round sp ch b = Some (z, rest) ->
  exists o, opening_wf P ch o /\ (ch <> 0 -> padding_zero P (o_in o)) /\
            b = enc_round P ch o ++ rest.
Proof.
  intros Hb. unfold read_round.
  destruct (read (octets (sp_H sp)) b) as [[c b1]|] eqn:R1; [|discriminate].
  rewrite <- (cf_UR P sp CF).
  destruct (if is_UR (transf P) then _ else _) as [[g b2]|] eqn:R2; [|discriminate].
  destruct (read _ b2) as [[tr b3]|] eqn:R3; [|discriminate].
  destruct (read _ b3) as [[s1 b4]|] eqn:R4; [|discriminate].
  destruct (read _ b4) as [[s2 b5]|] eqn:R5; [|discriminate].
  destruct (if ch =? 0 then _ else _) as [[sh b6]|] eqn:R6; [|discriminate].
  destruct ((ch =? 0) || zero_padding (sp_n sp) sh) eqn:Hz; [|discriminate].
  intros [= <- <-].
  apply read_inv in R1, R3, R4, R5. destruct R1 as [-> L1]. destruct R3 as [-> L3].
  destruct R4 as [-> L4]. destruct R5 as [-> L5].
  assert (R2' : b1 = (if is_UR (transf P) then g else []) ++ tr ++ s1 ++ s2 ++ b5 /\
          (is_UR (transf P) = true -> length g = G_len P (prv ch))).
  { destruct (is_UR (transf P)).
    - apply read_inv in R2. destruct R2 as [-> L2]. split; auto. intros _. rewrite (G_len_eq P sp CF). exact L2.
    - injection R2 as <- <-. split; auto. discriminate. }
  destruct R2' as [-> L2].
  assert (R6' : b5 = (if ch =? 0 then [] else sh) ++ b6 /\ (ch <> 0 -> length sh = sB)).
  { destruct (Nat.eqb_spec ch 0) as [Hc|Hc].
    - injection R6 as <- <-. split; auto. lia.
    - apply read_inv in R6. destruct R6 as [-> L6]. split; auto. intros _. rewrite L6. symmetry. apply (cf_nB P sp CF). }
  destruct R6' as [-> L6].
  exists (mkOpening s1 s2 sh tr c g). unfold opening_wf, enc_round.
  cbn [o_c3 o_g3 o_comm o_seed1 o_seed2 o_in].
  rewrite L4, L5, L3, L1, (cf_S P sp CF), (cf_aB P sp CF), (cf_H P sp CF).
  split; [|split].
  - split; [auto|]. split; [auto|]. split; [auto|].
    apply bytes_ok_app_r, bytes_ok_app_r in Hb. pose proof (bytes_ok_app_l _ _ Hb) as Ht.
    split; [exact Ht|]. split; [auto|]. split; [exact L2|].
    intros Hc. split; [apply L6; auto|]. do 3 apply bytes_ok_app_r in Hb.
    replace (ch =? 0) with false in Hb by lia. apply bytes_ok_app_l in Hb. exact Hb.
  - intros Hc. apply pad_iff. replace (ch =? 0) with false in Hz by lia. exact Hz.
  - rewrite <- !app_assoc. reflexivity.
Qed.

Lemma read_rounds_enc (f : nat -> nat) os rest k : forall i,
  (forall j, i <= j < i + k -> opening_wf P (f j) (os j) /\ (f j <> 0 -> padding_zero P (o_in (os j)))) ->
  read_rounds sp (map f (seq i k))
    (concat (map (fun j => enc_round P (f j) (os j)) (seq i k)) ++ rest) =
  Some (map (fun j => zo (f j) (os j)) (seq i k)).
Proof.
  induction k as [|k IH]; intros i H; auto. cbn [seq map concat read_rounds].
  rewrite <- app_assoc. destruct (H i ltac:(lia)) as [H1 H2].
  rewrite read_round_enc by auto. rewrite IH by (intros; apply H; lia). reflexivity.
Qed.

Lemma read_rounds_inv (f : nat -> nat) k : forall i b zs, bytes_ok b ->
  read_rounds sp (map f (seq i k)) b = Some zs ->
  exists os rest,
    (forall j, i <= j < i + k -> opening_wf P (f j) (os j) /\ (f j <> 0 -> padding_zero P (o_in (os j)))) /\
    b = concat (map (fun j => enc_round P (f j) (os j)) (seq i k)) ++ rest.
Proof.
  induction k as [|k IH]; intros i b zs Hb; cbn [seq map concat read_rounds].
  - intros _. exists (fun _ => mkOpening [] [] [] [] [] []), b. split; [lia|reflexivity].
  - destruct (read_round sp (f i) b) as [[z b']|] eqn:Hr; [|discriminate].
    destruct (read_rounds sp _ b') as [zs'|] eqn:Hrs; [|discriminate]. intros _.
    destruct (read_round_inv _ _ _ _ Hb Hr) as (o & Ho & Hpo & ->).
    destruct (IH (S i) b' zs' (bytes_ok_app_r _ _ Hb) Hrs) as (os & rest & Hos & ->).
    exists (fun j => if j =? i then o else os j), rest. split.
    + intros j Hj. destruct (Nat.eqb_spec j i) as [->|]; [auto|]. apply Hos. lia.
    + rewrite Nat.eqb_refl, <- app_assoc. do 3 f_equal. apply map_ext_in. intros j Hj.
      apply in_seq in Hj. replace (j =? i) with false by lia. reflexivity.
Qed.

Lemma parse_enc cb salt os rest : sig_wf P cb salt os -> pad_ok P cb os ->
  zkbpp_parse sp (enc P cb salt os ++ rest) =
  Some (mkZsig cb salt (map (fun k => zo (chalv cb k) (os k)) (seq 0 T))).
Proof.
  intros (H1 & H2 & H3) Hp. unfold zkbpp_parse, enc. rewrite <- !app_assoc.
  rewrite read_app by (rewrite H1, (cf_T P sp CF), octets_eq; reflexivity).
  rewrite read_app by (rewrite H2; apply (cf_salt P sp CF)). rewrite <- (cf_T P sp CF). fold T.
  replace (forallb _ _) with true.
  2:{ symmetry. apply forallb_forall. intros k Hk. apply in_seq in Hk. rewrite encoded_trit_eq.
      destruct (H3 k); [fold T; lia|]. lia. }
  rewrite (map_ext (encoded_trit cb) (chalv cb)) by (intros; apply encoded_trit_eq).
  fold T. rewrite read_rounds_enc; [reflexivity|].
  intros j Hj. split; [apply H3; fold T; lia|]. apply Hp. fold T. lia.
Qed.

Lemma parse_inv sg z : bytes_ok sg -> zkbpp_parse sp sg = Some z ->
  exists cb salt os rest, sg = enc P cb salt os ++ rest /\ sig_wf P cb salt os /\ pad_ok P cb os.
Proof.
  intros Hb. unfold zkbpp_parse.
  destruct (read _ sg) as [[cb b1]|] eqn:R1; [|discriminate].
  destruct (read 32 b1) as [[salt b2]|] eqn:R2; [|discriminate].
  rewrite <- (cf_T P sp CF) in *. fold T in R1 |- *.
  destruct (forallb _ _) eqn:Hf; [|discriminate].
  rewrite (map_ext (encoded_trit cb) (chalv cb)) by (intros; apply encoded_trit_eq).
  destruct (read_rounds sp _ b2) as [zs|] eqn:R3; [|discriminate]. intros _.
  apply read_inv in R1, R2. destruct R1 as [-> L1]. destruct R2 as [-> L2].
  destruct (read_rounds_inv _ _ _ _ _ (bytes_ok_app_r _ _ (bytes_ok_app_r _ _ Hb)) R3)
    as (os & rest & Hos & ->).
  exists cb, salt, os, rest. split; [|split; [split; [|split]|]].
  - unfold enc. rewrite <- !app_assoc. reflexivity.
  - rewrite L1, octets_eq. reflexivity.
  - rewrite L2. symmetry. apply (cf_salt P sp CF).
  - intros k Hk. fold T in Hk. split; [|apply Hos; lia].
    rewrite forallb_forall in Hf. specialize (Hf k). rewrite in_seq, encoded_trit_eq in Hf.
    specialize (Hf ltac:(lia)). lia.
  - intros k Hk. fold T in Hk. apply Hos. lia.
Qed.

(** ** Checking *)
Variables pub pt msg cb salt : bytes.
Variable os : nat -> opening.
Hypothesis Hpub : arr pub.
Hypothesis Hpt : arr pt.
Hypothesis Hppad : padding_zero P pub.
Hypothesis Hcb : bytes_ok cb.
Hypothesis Hwf : sig_wf P cb salt os.
Hypothesis Hpad : pad_ok P cb os.

Let Cb := block P pub.
Let pb := block P pt.
Let z := mkZsig cb salt (map (fun k => zo (chalv cb k) (os k)) (seq 0 T)).
Notation ch k := (chalv cb k).
Notation view' := (opened_view E sp L pb z).

Lemma ver_e_eq k : ver_e z k = ch k.
Proof. unfold ver_e, z. cbn [zs_e]. apply encoded_trit_eq. Qed.

Lemma ver_open_eq k : k < T -> ver_open z k = zo (ch k) (os k).
Proof.
  intros Hk. unfold ver_open, z. cbn [zs_open].
  rewrite (nth_indep _ _ (zo (ch 0) (os 0))) by (rewrite map_length, seq_length; exact Hk).
  rewrite (map_nth (fun k => zo (ch k) (os k))). rewrite seq_nth by exact Hk. reflexivity.
Qed.

Lemma ch_lt k : k < T -> ch k < 3.
Proof. intros Hk. destruct Hwf as (_ & _ & H). apply H. exact Hk. Qed.

Lemma party0 k : k < T -> opened_party z k 0 = ch k.
Proof.
  intros Hk. unfold opened_party. rewrite ver_e_eq. pose proof (ch_lt k Hk).
  rewrite Nat.add_0_r. apply Nat.mod_small. auto.
Qed.
Lemma party1 k : opened_party z k 1 = nxt (ch k).
Proof. unfold opened_party. rewrite ver_e_eq. reflexivity. Qed.

Lemma seed0 k : k < T -> opened_seed z k 0 = o_seed1 (os k).
Proof. intros Hk. unfold opened_seed. rewrite ver_open_eq by auto. reflexivity. Qed.
Lemma seed1 k : k < T -> opened_seed z k 1 = o_seed2 (os k).
Proof. intros Hk. unfold opened_seed. rewrite ver_open_eq by auto. reflexivity. Qed.

Lemma clear_bytes b : in_wf P b -> clear_tail P b = bytes_of n (bit b).
Proof.
  intros [Hl Hb]. destruct (clear_tail_spec P HP1 b Hl) as (_ & H1 & H2 & H3).
  destruct (bytes_of_spec n (bit b)) as (B1 & B2 & B3). apply bits_ext; auto.
  - rewrite H1, B1. unfold n. rewrite (cf_nB P sp CF), <- (cf_n P sp CF). reflexivity.
  - intros i _. rewrite H3, B3. reflexivity.
Qed.

Lemma share_eq k j : k < T -> j < 2 -> let s := if j =? 0 then o_seed1 (os k) else o_seed2 (os k) in
  let p := if j =? 0 then ch k else nxt (ch k) in
  share_in E P s (o_in (os k)) salt k p = bytes_of n (opened_share E sp z k j).
Proof.
  intros Hk Hj s p. pose proof (ch_lt k Hk) as Hc.
  assert (Hp : opened_party z k j = p).
  { unfold p. assert (j = 0 \/ j = 1) as [-> | ->] by lia; cbn [Nat.eqb]; [apply party0; auto|apply party1]. }
  assert (Hs : opened_seed z k j = s).
  { unfold s. assert (j = 0 \/ j = 1) as [-> | ->] by lia; cbn [Nat.eqb]; [apply seed0; auto|apply seed1; auto]. }
  assert (Hp3 : p < 3) by (unfold p; pose proof (nxt_lt (ch k)); destruct (j =? 0); lia).
  assert (Hp2 : p = 2 -> ch k <> 0).
  { unfold p. assert (j = 0 \/ j = 1) as [-> | ->] by lia; cbn [Nat.eqb]; [lia|]. intros H H0.
    rewrite H0 in H. discriminate. }
  unfold share_in, opened_share. rewrite Hp, Hs. change (zs_salt z) with salt.
  clearbody p s. destruct (Nat.ltb_spec p 2) as [H|H].
  - replace (p =? 2) with false by lia. apply (party_in_eq E P sp HP1 CF HE); auto.
  - assert (p = 2) as -> by lia. cbn [Nat.eqb]. rewrite ver_open_eq by auto. cbn [zo zo_iShare].
    specialize (Hp2 eq_refl). replace (ch k =? 0) with false by lia. apply clear_bytes.
    destruct Hwf as (_ & _ & Hw). destruct (Hw k Hk) as (_ & _ & _ & _ & _ & _ & _ & Hi).
    apply Hi. auto.
Qed.

Definition second_view (k : nat) : view :=
  mkView (bytes_of n (iShare (view' k 1))) (o_comm (os k)) (bytes_of n (oShare (view' k 1))).

Lemma vr_views_eq k : k < T ->
  vr_views E P (ch k) (os k) salt k pt = (view_bytes P (view' k 0), second_view k).
Proof.
  intros Hk. pose proof (ch_lt k Hk) as Hc. destruct (arr_len P HP1 pt Hpt) as [_ Hl].
  destruct Hpt as [_ Hb]. destruct Hwf as (_ & _ & Hw). destruct (Hw k Hk) as [_ Ho].
  pose proof (vr_views_spec E P HP1 HE HC (ch k) (os k) salt k pt Hc Ho Hl Hb) as H1.
  pose proof (share_eq k 0 Hk ltac:(lia)) as S0. cbv zeta in S0. cbn [Nat.eqb] in S0.
  pose proof (share_eq k 1 Hk ltac:(lia)) as S1. cbv zeta in S1. cbn [Nat.eqb] in S1.
  assert (H2 : ver_views E P (ch k) (share_in E P (o_seed1 (os k)) (o_in (os k)) salt k (ch k))
    (share_in E P (o_seed2 (os k)) (o_in (os k)) salt k (nxt (ch k)))
    (party_tape E P (o_seed1 (os k)) salt k (ch k)) (party_tape E P (o_seed2 (os k)) salt k (nxt (ch k)))
    (o_comm (os k)) pt (view_bytes P (view' k 0)) (second_view k)).
  { pose proof (spec_ver_views E P sp HP1 CF (ch k) (opened_share E sp z k)
      (fun j => tape_rand E sp (opened_seed z k j) salt k (opened_party z k j)) (bit pb)
      (share_in E P (o_seed1 (os k)) (o_in (os k)) salt k (ch k))
      (share_in E P (o_seed2 (os k)) (o_in (os k)) salt k (nxt (ch k)))
      (party_tape E P (o_seed1 (os k)) salt k (ch k)) (party_tape E P (o_seed2 (os k)) salt k (nxt (ch k)))
      (o_comm (os k)) pt) as H.
    assert (Hv : forall j, ver_view sp L (ch k) (opened_share E sp z k)
      (fun j => tape_rand E sp (opened_seed z k j) salt k (opened_party z k j))
      (bit (o_comm (os k))) (bit pb) j = view' k j).
    { intros j. unfold opened_view. rewrite ver_e_eq, ver_open_eq by auto. reflexivity. }
    cbv zeta in H. fold L in H. rewrite !Hv in H.
    unfold second_view. replace (bytes_of n (iShare (view' k 1))) with
      (share_in E P (o_seed2 (os k)) (o_in (os k)) salt k (nxt (ch k))) by exact S1.
    apply H; auto.
    - intros g _. rewrite (party_tape_eq E P sp CF) by auto. rewrite party0, seed0 by auto. reflexivity.
    - intros g _. rewrite (party_tape_eq E P sp CF) by apply nxt_lt. rewrite party1, seed1 by auto. reflexivity.
    - apply (bit_pb P sp CF). }
  destruct (ver_views_unique E P HP1 _ _ _ _ _ _ _ _ _ _ _ _ (fun _ _ => eq_refl) H1 H2) as [W1 W2].
  rewrite <- W1, <- W2. apply surjective_pairing.
Qed.

Lemma by_party_three k a b c j : by_party (ch k) a b c j = three z k a b c j.
Proof. unfold by_party, three. rewrite ver_e_eq. reflexivity. Qed.

Lemma third_out k : k < T ->
  lxor_list (lxor_list (bytes_of n (oShare (view' k 0))) (bytes_of n (oShare (view' k 1)))) (firstn sB pub) =
  bytes_of n (vxor (vxor (oShare (view' k 0)) (oShare (view' k 1))) (bit Cb)).
Proof.
  intros Hk. destruct (arr_len P HP1 pub Hpub) as [Hl _]. destruct Hpub as [_ Hb].
  assert (Hi : forall v, in_wf P (bytes_of n v)).
  { intros v. destruct (bytes_of_spec n v) as (B1 & B2 & _). split; auto. rewrite B1. unfold n.
    rewrite (cf_nB P sp CF), <- (cf_n P sp CF). reflexivity. }
  pose proof (firstn_wf P pub Hl Hb) as Hf. fold sB in Hf.
  pose proof (lxor3_wf P _ _ _ (Hi (oShare (view' k 0))) (Hi (oShare (view' k 1))) Hf) as [X1 X2].
  match goal with |- _ = bytes_of n ?v => pose proof (Hi v) as [Y1 Y2] end.
  apply bits_ext; auto; [rewrite X1, Y1; reflexivity|]. intros i Hil. rewrite X1 in Hil. fold sB in Hil.
  rewrite (bit_lxor3 P) by auto. rewrite !(proj2 (proj2 (bytes_of_spec _ _))).
  destruct (Nat.ltb_spec i n) as [Hn|Hn]; unfold vxor.
  - reflexivity.
  - rewrite bit_firstn by auto. rewrite Hppad by (fold n sB; lia). reflexivity.
Qed.

Lemma vr_out_eq k j : k < T ->
  vr_out E P (ch k) (os k) salt k pub pt j = ver_out E sp L Cb pb z k j.
Proof.
  intros Hk. unfold vr_out, ver_out. rewrite vr_views_eq by auto. rewrite by_party_three.
  cbn [view_bytes second_view v_outputShare]. fold n sB. rewrite third_out by auto.
  rewrite <- (cf_n P sp CF). reflexivity.
Qed.

Lemma vr_commit_eq k j : k < T ->
  vr_commit E P (ch k) (os k) salt k pt j = ver_C E sp L pb z k j.
Proof.
  intros Hk. unfold vr_commit, ver_C. rewrite vr_views_eq by auto. rewrite by_party_three.
  unfold opened_commitment. rewrite !(commit_eq E P sp CF).
  cbn [view_bytes second_view v_outputShare v_inputShare v_communicatedBits Nat.eqb].
  rewrite seed0, seed1, ver_open_eq by auto.
  rewrite <- (cf_n P sp CF), <- (cf_r P sp CF), <- (cf_s P sp CF). reflexivity.
Qed.

Lemma vr_g_eq k j : sp_UR sp = true -> k < T ->
  vr_g E P (ch k) (os k) salt k pt j = ver_G E sp L pb z k j.
Proof.
  intros Hur Hk. unfold vr_g, ver_G. rewrite vr_views_eq by auto. rewrite by_party_three.
  unfold opened_G. rewrite !(G_eq E P sp CF).
  cbn [view_bytes second_view v_outputShare v_inputShare v_communicatedBits Nat.eqb].
  rewrite seed0, seed1, party0, party1, ver_open_eq by auto.
  unfold zo. cbn [zo_G zo_transcript]. rewrite (cf_UR P sp CF), Hur.
  rewrite <- (cf_n P sp CF), <- (cf_r P sp CF), <- (cf_s P sp CF). reflexivity.
Qed.

Lemma ver_input_eq : ver_input E P cb salt os pub pt msg =
  challenge_string sp (ver_out E sp L Cb pb z) (ver_C E sp L pb z) (ver_G E sp L pb z)
    (Cb ++ pb) (zs_salt z) msg.
Proof.
  unfold ver_input. rewrite (chal_input_eq P sp CF). change (zs_salt z) with salt.
  apply (challenge_string_ext P sp CF).
  - intros. apply vr_out_eq; auto.
  - intros. apply vr_commit_eq; auto.
  - intros. apply vr_g_eq; auto.
Qed.

Lemma chal_compare e : length e = T -> Forall (fun v => v < 3) e ->
  eqb_bytes cb (challenge_bytes sp e) =
  forallb (fun t => nth t e 0 =? ver_e z t) (seq 0 T) && zero_padding (2 * T) cb.
Proof.
  intros Hl He. apply eq_true_iff_eq. rewrite eqb_bytes_eq, andb_true_iff, forallb_forall, zero_padding_iff.
  assert (HB : challenge_bytes sp e = bytes_of (2 * T)
    (fun k => Nat.odd (nth (k / 2) e 0 / (if k mod 2 =? 0 then 1 else 2)))).
  { unfold challenge_bytes. rewrite <- (cf_T P sp CF). reflexivity. }
  match type of HB with _ = bytes_of _ ?v => destruct (bytes_of_spec (2 * T) v) as (B1 & B2 & B3) end.
  rewrite <- HB in B1, B2, B3. split.
  - intros Hc. split.
    + intros k Hk. apply in_seq in Hk. rewrite ver_e_eq, Hc.
      rewrite (chalv_of P sp CF) by (auto; fold T; lia). apply Nat.eqb_refl.
    + intros i Hi. rewrite Hc, B3. replace (i <? 2 * T) with false by lia. reflexivity.
  - intros [H1 H2]. apply bits_ext; auto.
    + destruct Hwf as (Hcl & _). rewrite Hcl, B1, octets_eq. reflexivity.
    + intros i Hi. destruct (Nat.ltb_spec i (2 * T)) as [Hi2|Hi2].
      * set (k := i / 2). assert (Hk : k < T) by (unfold k; apply Nat.div_lt_upper_bound; lia).
        specialize (H1 k). rewrite in_seq, ver_e_eq in H1. specialize (H1 ltac:(lia)).
        apply Nat.eqb_eq in H1. rewrite <- (chalv_of P sp CF e k) in H1 by auto.
        unfold chalv in H1. pose proof (Nat.div_mod i 2 ltac:(lia)) as Hd. fold k in Hd.
        pose proof (Nat.mod_upper_bound i 2 ltac:(lia)) as Hm.
        assert (Hik : i = 2 * k \/ i = 2 * k + 1) by lia. clear Hd Hm. clearbody k.
        destruct Hik as [-> | ->];
        destruct (bit cb (2 * k)), (bit cb (2 * k + 1)), (bit (challenge_bytes sp e) (2 * k)),
          (bit (challenge_bytes sp e) (2 * k + 1)); cbn in H1; auto; lia.
      * rewrite B3. replace (i <? 2 * T) with false by lia. apply H2.
        destruct Hwf as (Hcl & _). rewrite Hcl in Hi. rewrite octets_eq. fold T in Hi. lia.
Qed.

Lemma zkbpp_check_eq f :
  verify_result E P f pub pt msg cb salt os =
  match zkbpp_check E sp L Cb pb msg z f with None => NoFuel | Some b => Ok b end.
Proof.
  unfold verify_result, zkbpp_check. rewrite (H3_eq E P sp HP1 CF HE), ver_input_eq.
  destruct (ZkbppSpec.H3 E sp f _) as [e|] eqn:He; auto. cbn [option_map].
  destruct (H3_range E P sp CF f _ e He) as [Hl Hf].
  rewrite (chal_of_eq P sp CF) by auto. rewrite chal_compare by auto.
  rewrite <- (cf_T P sp CF). reflexivity.
Qed.
End Z.

Lemma picnic_verify_is E p P sp fuel pk msg sg :
  get_param_set p = Some P -> pk_params pk = p -> is_picnic3 p = false -> table2 p = Some sp ->
  env_bytes_ok E -> constants_ok E P -> pk_wf pk -> padding_zero P (pk_ciphertext pk) ->
  bytes_ok sg ->
  picnic_verify E fuel pk msg sg =
    match zkbpp_verify E sp (spec_lowmc E P sp) fuel (block P (pk_ciphertext pk))
            (block P (pk_plaintext pk)) msg sg with
    | None => NoFuel
    | Some b => Ok b
    end
  \/ (picnic_verify E fuel pk msg sg = UB /\ sp_UR sp = true /\ zkbpp_parse sp sg = None).
Proof.
  intros HP Hp H3 Htab HE HC Hwf Hpad Hsg.
  pose proof (get_param_set_wfP1 _ _ HP H3) as HP1.
  destruct (table2_conforms p P HP) as (sp' & Htab' & CF).
  assert (sp' = sp) as -> by congruence. rewrite (spec_lowmc_eq E P sp CF).
  assert (Hnone : deserializeSignature E P sg = Ok None \/ deserializeSignature E P sg = UB ->
    zkbpp_parse sp sg = None).
  { intros Hd. destruct (zkbpp_parse sp sg) as [z|] eqn:Hz; auto. exfalso.
    destruct (parse_inv P sp CF sg z Hsg Hz) as (cb & salt & os & rest & -> & Hw & Hpo).
    pose proof (deserialize_enc E P HP1 HE cb salt os rest Hw) as H.
    destruct Hd as [Hd|Hd]; rewrite Hd in H; cbn [ok] in H; contradiction. }
  unfold zkbpp_verify.
  destruct (verify_cases E P p HP H3 HE sg Hsg) as [H|[H|[H Hur]]].
  - left. destruct H as (cb & salt & os & rest & -> & Hcb & Hw & Hpo).
    rewrite (verify_value E P p HP H3 HE HC) by auto. destruct Hwf as [Hpt Hpub].
    rewrite (parse_enc P sp CF) by auto. apply zkbpp_check_eq; auto.
  - left. rewrite Hnone by auto. unfold picnic_verify. rewrite Hp, HP, H3, H. reflexivity.
  - right. split; [|split; auto; rewrite <- (cf_UR P sp CF); auto].
    unfold picnic_verify. rewrite Hp, HP, H3, H. reflexivity.
Qed.

(** ** Parameters, for PropertiesSpec.v *)
Lemma parameters_are p P :
  get_param_set p = Some P ->
  exists sp, table2 p = Some sp /\
    stateSizeBits P = sp_n sp /\ numSboxes P = sp_s sp /\ numRounds P = sp_r sp /\
    use_shake128 P = sp_shake128 sp /\ 8 * digestSizeBytes P = sp_H sp /\ numMPCRounds P = sp_T sp /\
    numOpenedRounds P = sp_u sp /\ numMPCParties P = sp_N sp /\ 8 * seedSizeBytes P = sp_S sp /\
    is_UR (transf P) = sp_UR sp /\ saltSizeBytes P = 32 /\
    stateSizeBytes P = octets (sp_n sp) /\ andSizeBytes P = octets (3 * sp_r sp * sp_s sp).
Proof.
  intros HP. destruct (table2_conforms p P HP) as (sp & Ht & [C1 C2 C3 C4 C5 C6 C7 C8 C9 C10 C11 C12 C13]).
  exists sp. split; [exact Ht|].
  assert (Hb : match table2 p with Some sp => (8 * digestSizeBytes P =? sp_H sp) && (8 * seedSizeBytes P =? sp_S sp)
     | None => false end = true).
  { clear - HP. revert p P HP. apply (params_forall (fun p P => match table2 p with Some sp =>
      (8 * digestSizeBytes P =? sp_H sp) && (8 * seedSizeBytes P =? sp_S sp) | None => false end)).
    vm_compute. reflexivity. }
  rewrite Ht in Hb. apply andb_true_iff in Hb. rewrite !Nat.eqb_eq in Hb. tauto.
Qed.
