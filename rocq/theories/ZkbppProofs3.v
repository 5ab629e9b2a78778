(** Signing with a ZKB++ parameter set computes zkbpp_sign. *)

From Coq Require Import List NArith Arith Bool Btauto Lia ZifyBool ZifyNat ZifyN.
From Verif Require Import Base Params Env Spec LowMC Picnic1 Api BaseFacts ParamFacts ApiFacts LowMCFacts
  LowMCInj Hint ZkbMpc Zkb ZkbRound ZkbSign ZkbChal ZkbCodec ZkbTop ApiSpec SigSpec ZkbApi
  ZkbppSpec ZkbppProofs ZkbppProofs2.
Import ListNotations.

Section Z.
Variable E : env.
Variable P : paramset.
Variable sp : sparams.
Hypothesis HP1 : wfP1 P.
Hypothesis CF : conforms P sp.
Hypothesis HE : env_bytes_ok E.
Hypothesis HC : constants_ok E P.
Let HP : wfP P := w1_wfP P HP1.

Let L := lowmc_of E P.
Let n := stateSizeBits P.
Let m := numSboxes P.
Let R := numRounds P.
Let T := numMPCRounds P.
Let sB := stateSizeBytes P.
Let aB := andSizeBytes P.

Variables sk pub pt msg : bytes.
Hypothesis Hsk : arr sk.
Hypothesis Hpub : arr pub.
Hypothesis Hpt : arr pt.
Hypothesis Hpad : padding_zero P sk.

Let skb := block P sk.
Let Cb := block P pub.
Let pb := block P pt.

Notation seed' := (seed E sp skb Cb pb msg).
Notation salt' := (salt E sp skb Cb pb msg).
Notation view' := (sign_view E sp L skb Cb pb msg).

Lemma n_le : n <= 8 * sB.
Proof.
  unfold n, sB. rewrite (cf_n P sp CF), (cf_nB P sp CF). apply octets_spec.
Qed.

Lemma randomness_eq : randomness E sp skb Cb pb msg = all_seeds E P sk pub pt msg.
Proof.
  unfold randomness, all_seeds. rewrite (hash_eq E P sp CF). cbn [concat prefix_bytes HASH_PREFIX_NONE app].
  rewrite app_nil_r. rewrite (cf_S P sp CF), (cf_salt P sp CF), (cf_T P sp CF), (cf_n P sp CF), le16_eq.
  fold sB skb Cb pb. unfold skb, Cb, pb, block.
  f_equal; [rewrite <- !app_assoc; reflexivity|lia].
Qed.

Lemma seed_eq k j : seed_of E P sk pub pt msg k j = seed' k j.
Proof.
  unfold seed_of, seed, sub_bytes. rewrite randomness_eq, (cf_S P sp CF). reflexivity.
Qed.

Lemma salt_eq : sig_salt E P sk pub pt msg = salt'.
Proof.
  unfold sig_salt, salt, sub_bytes. rewrite randomness_eq, (cf_salt P sp CF), (cf_S P sp CF), (cf_T P sp CF).
  do 2 f_equal. lia.
Qed.

Lemma bit_block b i : i < 8 * sB -> bit (block P b) i = bit b i.
Proof. intros Hi. unfold block. apply bit_firstn. exact Hi. Qed.

Notation S_ k := (seed_of E P sk pub pt msg k).
Notation salt_ := (sig_salt E P sk pub pt msg).

Lemma sr_in_eq k j : j < 3 ->
  sr_in E P (S_ k) salt_ k sk j = bytes_of n (key_share E sp skb Cb pb msg k j).
Proof.
  intros Hj. unfold sr_in, key_share.
  destruct (Nat.ltb_spec j 2) as [H2|H2].
  - replace (j =? 2) with false by lia. rewrite (party_in_eq E P sp HP1 CF HE) by auto.
    rewrite seed_eq, salt_eq. reflexivity.
  - assert (j = 2) as -> by lia. cbn [Nat.eqb].
    destruct (arr_len P HP1 sk Hsk) as [Hl _]. destruct Hsk as [_ Hb].
    assert (Hp : forall i, i < 2 -> in_wf P (party_in E P (S_ k i) salt_ k i)).
    { intros i Hi. destruct (party_in_wf E P HP1 HE (S_ k i) salt_ k i Hi) as (A & B & _). split; auto. }
    pose proof (firstn_wf P sk Hl Hb) as Hf.
    pose proof (lxor3_wf P _ _ _ Hf (Hp 0 ltac:(lia)) (Hp 1 ltac:(lia))) as [Hxl Hxb].
    match goal with |- _ = bytes_of n ?v => destruct (bytes_of_spec n v) as (B1 & B2 & B3) end.
    apply bits_ext; auto.
    + fold sB in Hxl |- *. rewrite Hxl, B1. unfold sB, n. rewrite (cf_nB P sp CF), <- (cf_n P sp CF). reflexivity.
    + intros i Hi. rewrite B3. fold sB in Hxl, Hi |- *. rewrite Hxl in Hi.
      rewrite (bit_lxor3 P) by auto.
      rewrite !(party_in_eq E P sp HP1 CF HE) by lia.
      rewrite !(proj2 (proj2 (bytes_of_spec _ _))).
      fold n. destruct (Nat.ltb_spec i n) as [Hin|Hin].
      * unfold vxor. rewrite !seed_eq, salt_eq. reflexivity.
      * rewrite bit_firstn by auto. rewrite (Hpad i) by (fold n sB; lia). reflexivity.
Qed.

Lemma tape_rand_eq k j g :
  tape_rand E sp (S_ k j) salt_ k j g = tape_rand E sp (seed' k j) salt' k j g.
Proof. rewrite seed_eq, salt_eq. reflexivity. Qed.

Lemma bit_pb : veq n (bit pt) (bit pb).
Proof. intros i Hi. symmetry. apply bit_block. pose proof n_le. lia. Qed.

Lemma sr_views_eq k j : j < 3 ->
  tget (sr_views E P (S_ k) salt_ k sk pt) j = view_bytes P (view' k j).
Proof.
  intros Hj. destruct (arr_len P HP1 sk Hsk) as [Hl _]. destruct (arr_len P HP1 pt Hpt) as [_ Hl'].
  destruct Hsk as [_ Hb]. destruct Hpt as [_ Hb'].
  pose proof (sr_views_spec E P HP1 HE HC (S_ k) salt_ k sk pt Hl Hb Hl' Hb') as H1.
  pose proof (spec_views E P sp HP1 CF (key_share E sp skb Cb pb msg k)
    (fun j => tape_rand E sp (seed' k j) salt' k j) (bit pb)
    (sr_in E P (S_ k) salt_ k sk) (fun j => party_tape E P (S_ k j) salt_ k j) pt) as H2.
  rewrite (mpc_views_unique E P HP1 _ _ pt pt _ _ (fun _ _ => eq_refl) H1
    (H2 (fun i Hi => sr_in_eq k i Hi)
        (fun i g Hi _ => eq_trans (party_tape_eq E P sp CF _ _ _ _ _ Hi) (tape_rand_eq k i g))
        bit_pb)).
  destruct (lt3 j Hj) as [->|[->| ->]]; reflexivity.
Qed.

Lemma sr_out_eq k j : j < 3 ->
  sr_out E P (S_ k) salt_ k sk pt j = bytes_of (sp_n sp) (oShare (view' k j)).
Proof.
  intros Hj. unfold sr_out. rewrite sr_views_eq by auto. rewrite <- (cf_n P sp CF). reflexivity.
Qed.

Lemma sr_commit_eq k j : j < 3 ->
  sr_commit E P (S_ k) salt_ k sk pt j = sign_C E sp L skb Cb pb msg k j.
Proof.
  intros Hj. unfold sr_commit. rewrite sr_views_eq by auto. rewrite (commit_view E P sp CF), seed_eq. reflexivity.
Qed.

Lemma sr_g_eq k j : j < 3 ->
  sr_g E P (S_ k) salt_ k sk pt j = sign_G E sp L skb Cb pb msg k j.
Proof.
  intros Hj. unfold sr_g. rewrite sr_views_eq by auto. rewrite (G_view E P sp CF), seed_eq. reflexivity.
Qed.

Lemma sign_input_eq : sign_input E P sk pub pt msg =
  challenge_string sp (fun t j => bytes_of (sp_n sp) (oShare (view' t j)))
    (sign_C E sp L skb Cb pb msg) (sign_G E sp L skb Cb pb msg) (Cb ++ pb) salt' msg.
Proof.
  unfold sign_input. cbv zeta. rewrite (chal_input_eq P sp CF). fold sB.
  rewrite <- salt_eq. apply (challenge_string_ext P sp CF).
  - intros k j _ Hj. apply sr_out_eq; auto.
  - intros k j _ Hj. apply sr_commit_eq; auto.
  - intros _ k j _ Hj. apply sr_g_eq; auto.
Qed.

Lemma sign_trits f :
  trits E P f (chal_hash E P (sign_input E P sk pub pt msg)) T =
  option_map (map N.of_nat) (sign_challenge E sp L skb Cb pb msg f).
Proof.
  unfold T. rewrite (H3_eq E P sp HP1 CF HE), sign_input_eq. reflexivity.
Qed.

Lemma sign_round_eq e k ch : length e = T -> Forall (fun v => v < 3) e -> k < T ->
  ch = nth k e 0 ->
  enc_round P ch (sr_opening E P (S_ k) salt_ k sk pt ch) =
  sign_round_bytes E sp L skb Cb pb msg k ch.
Proof.
  intros Hl Hf Hk Hch.
  assert (Hc3 : ch < 3).
  { subst ch. rewrite Forall_forall in Hf. apply Hf. apply nth_In. lia. }
  unfold enc_round, sr_opening, sign_round_bytes. cbn [o_c3 o_g3 o_comm o_seed1 o_seed2 o_in].
  rewrite sr_commit_eq, sr_g_eq by apply prv_lt. rewrite sr_views_eq by apply nxt_lt.
  rewrite !seed_eq, sr_in_eq by lia. rewrite (cf_UR P sp CF).
  cbn [view_bytes v_communicatedBits]. rewrite <- (cf_n P sp CF), <- (cf_r P sp CF), <- (cf_s P sp CF).
  reflexivity.
Qed.

Lemma sig_bytes_eq e : length e = T -> Forall (fun v => v < 3) e ->
  sig_bytes E P sk pub pt msg (map N.of_nat e) =
  challenge_bytes sp e ++ salt' ++
  flat_map (fun t => sign_round_bytes E sp L skb Cb pb msg t (nth t e 0)) (seq 0 (sp_T sp)).
Proof.
  intros Hl Hf. unfold sig_bytes, enc. rewrite (chal_of_eq P sp CF) by auto.
  rewrite salt_eq. do 2 f_equal. rewrite flat_map_concat_map, <- (cf_T P sp CF). fold T.
  f_equal. apply map_ext_in. intros k Hk. apply in_seq in Hk.
  unfold sign_opening. rewrite (chalv_of P sp CF) by (auto; lia).
  apply (sign_round_eq e); auto. lia.
Qed.

Lemma zkbpp_sign_eq f :
  zkbpp_sign E sp L skb Cb pb msg f =
  option_map (sig_bytes E P sk pub pt msg)
    (trits E P f (chal_hash E P (sign_input E P sk pub pt msg)) T).
Proof.
  rewrite sign_trits. unfold zkbpp_sign.
  destruct (sign_challenge E sp L skb Cb pb msg f) as [e|] eqn:He; auto.
  cbn [option_map]. destruct (H3_range E P sp CF f _ e He) as [Hl Hf].
  rewrite sig_bytes_eq by auto. reflexivity.
Qed.
End Z.

Lemma max_size_eq P sp : wfP1 P -> conforms P sp -> serialize_bytesRequired P = zkbpp_max_size sp.
Proof.
  intros HP1 CF. rewrite (bytesRequired_eq P HP1). unfold full_len, zkbpp_max_size.
  rewrite (cf_UR P sp CF), (cf_salt P sp CF), (cf_T P sp CF), (cf_H P sp CF), (cf_aB P sp CF),
    (cf_S P sp CF), (cf_nB P sp CF), !octets_eq. reflexivity.
Qed.

Lemma blit0 {A} (b src : list A) : blit_list b 0 src = src ++ skipn (length src) b.
Proof. reflexivity. Qed.

Lemma picnic_sign_is E p P sp fuel sk msg buf len :
  get_param_set p = Some P -> sk_params sk = p -> is_picnic3 p = false -> table2 p = Some sp ->
  env_bytes_ok E -> constants_ok E P -> sk_wf sk -> padding_zero P (sk_data sk) ->
  lowmc_relation E P (sk_data sk) (pk_plaintext (sk_pk sk)) (pk_ciphertext (sk_pk sk)) ->
  len <= length buf ->
  picnic_sign E fuel sk msg buf len =
  match zkbpp_sign E sp (spec_lowmc E P sp) (block P (sk_data sk)) (block P (pk_ciphertext (sk_pk sk)))
          (block P (pk_plaintext (sk_pk sk))) msg fuel with
  | None => NoFuel
  | Some sg => if len <? zkbpp_max_size sp then Ok (false, buf, len)
               else Ok (true, sg ++ skipn (length sg) buf, length sg)
  end.
Proof.
  intros HP Hp H3 Htab HE HC Hwf Hpad Hrel Hlen.
  pose proof (get_param_set_wfP1 _ _ HP H3) as HP1.
  destruct (table2_conforms p P HP) as (sp' & Htab' & CF).
  assert (sp' = sp) as -> by congruence. rewrite <- Hp in HP, H3.
  pose proof (picnic_sign_outcome E P fuel sk msg buf len HP H3 HE HC Hwf Hlen) as Ho.
  destruct Hwf as (Hsk & Hpt & Hpub).
  rewrite (spec_lowmc_eq E P sp CF), (zkbpp_sign_eq E P sp HP1 CF HE HC) by auto.
  rewrite <- (max_size_eq P sp HP1 CF). unfold sign_outcome in Ho. cbv zeta in Ho.
  destruct (trits E P fuel _ (numMPCRounds P)) as [ts|] eqn:Hts; cbn [option_map];
  destruct (picnic_sign E fuel sk msg buf len) as [[[[|] b] l]| | |]; try contradiction.
  - destruct Ho as (_ & Hge & ts' & [= <-] & _ & _ & -> & -> & _).
    replace (len <? _) with false by lia. reflexivity.
  - destruct Ho as (-> & -> & [N|(_ & _ & Hlt)]); [contradiction|].
    replace (len <? _) with true by lia. reflexivity.
  - destruct Ho as [_ Ho]. discriminate.
  - destruct Ho as (_ & _ & ts & Hx & _). discriminate.
  - destruct Ho as (_ & _ & [N|(_ & N & _)]); contradiction.
  - reflexivity.
Qed.
