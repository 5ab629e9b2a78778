(** The masked evaluation of Picnic3 computes LowMC; the verifier's evaluation with one party
    unopened repeats the signer's. *)

From Coq Require Import List NArith Arith Bool Btauto Lia ZifyBool ZifyNat ZifyN.
From Verif Require Import Base Params Env Spec LowMC Picnic1 Picnic3 BaseFacts ParamFacts LowMCFacts
  LowMCInj UtilFacts Hint ZkbMpc ZkbChal P3Tape P3Aux P3Online.
Import ListNotations.

Local Opaque pack.

Section X.
Variable P : paramset.
Hypothesis HP3 : wfP3 P.
Let n := stateSizeBits P.
Let m := numSboxes P.

(** The S-box maps mask [u] to mask [v] when the gates have the fresh masks. *)
Lemma hsbox_fresh u v : veq n (hsbox m 0 u (fresh u v)) v.
Proof.
  intros i Hi. pose proof (w3_m P HP3) as Hm. fold n m in Hm.
  destruct (split3 i m ltac:(lia)) as (k & x & Hk & Hx & ->). rewrite hsbox_at by auto.
  cbn [Nat.add]. destruct x as [|[|[|x]]]; [| | |lia].
  - pose proof (fresh_at u v k 0 ltac:(lia)) as F. rewrite Nat.add_0_r in F. rewrite F, Nat.add_0_r. btauto.
  - rewrite fresh_at by lia. btauto.
  - rewrite fresh_at by lia. btauto.
Qed.

Lemma hsbox_split s l v h : veq n v (vxor s l) ->
  forall F, (forall q, q < n -> h q = xorb (s (ga q) && s (gb q)) (F q)) ->
  veq n (hsbox m 0 v h) (vxor (sbox_layer m s) (hsbox m 0 l F)).
Proof.
  intros Hv F Hh i Hi. pose proof (w3_m P HP3) as Hm. fold n m in Hm.
  destruct (split3 i m ltac:(lia)) as (k & x & Hk & Hx & ->). unfold vxor.
  rewrite !hsbox_at, sbox_layer_at by auto. cbv zeta. cbn [Nat.add].
  assert (H0 : h (3 * k) = xorb (s (3 * k + 2) && s (3 * k + 1)) (F (3 * k))).
  { rewrite Hh by lia. pose proof (ga_at k 0 ltac:(lia)) as A. pose proof (gb_at k 0 ltac:(lia)) as B.
    rewrite Nat.add_0_r in A, B. rewrite A, B. reflexivity. }
  assert (H1 : h (3 * k + 1) = xorb (s (3 * k + 1) && s (3 * k)) (F (3 * k + 1))).
  { rewrite Hh, ga_at, gb_at by lia. reflexivity. }
  assert (H2 : h (3 * k + 2) = xorb (s (3 * k) && s (3 * k + 2)) (F (3 * k + 2))).
  { rewrite Hh, ga_at, gb_at by lia. reflexivity. }
  rewrite H0, H1, H2, !Hv by (clear - Hk Hm; lia). unfold vxor.
  clear - Hx. generalize (s (3 * k)) (s (3 * k + 1)) (s (3 * k + 2)) (l (3 * k)) (l (3 * k + 1)) (l (3 * k + 2))
    (F (3 * k)) (F (3 * k + 1)) (F (3 * k + 2)). intros.
  destruct x as [|[|[|x]]]; [| | |lia]; btauto.
Qed.
End X.

Lemma xsum_S k f : xsum (S k) f = xorb (xsum k f) (f k).
Proof. reflexivity. Qed.

Lemma xsum_xor k f g : xsum k (fun i => xorb (f i) (g i)) = xorb (xsum k f) (xsum k g).
Proof. apply xsum_xorb. Qed.

Section M.
Variable E : env.
Variable P : paramset.
Hypothesis HP3 : wfP3 P.
Hypothesis HI : inverses_ok E P.

Let n := stateSizeBits P.
Let m := numSboxes P.
Let R := numRounds P.
Let W := stateSizeWords P.
Let tS := p3_tapeSize P.
Let L := lowmc_of E P.

(** Parities of the tapes after preprocessing. *)
Lemma aux_parity tl j q : rows 16 tS tl -> j < R -> q < n ->
  tpar (aux_tapes E P tl) (2 * n * j + q) = lam P tl j q /\
  tpar (aux_tapes E P tl) (2 * n * j + n + q) = gate_par (lam P tl j) (ymask E P tl j) q.
Proof.
  intros Ht Hj Hq. destruct (aux_tapes_spec E P HP3 tl Ht) as (G0 & G1 & G2 & G3 & G4).
  fold R n in G2, G3, G4. unfold tpar. split.
  - unfold lam. fold n R. replace (j <? R) with true by lia. unfold tpar.
    apply xsum_ext. intros i Hi. destruct (Nat.eq_dec i 15) as [->|Hne]; [apply G2; auto|apply G1; lia].
  - rewrite (xsum_S 15). rewrite G4 by auto. unfold auxbit. fold n.
    rewrite (xsum_ext 15 _ (fun i => tbit tl i (2 * n * j + n + q))) by (intros; apply G1; auto).
    generalize (xsum 15 (fun i => tbit tl i (2 * n * j + n + q))). intros b.
    destruct b, (gate_par (lam P tl j) (ymask E P tl j) q); reflexivity.
Qed.

Lemma ohh_none T M v j q :
  ohh P T None M v j q =
  xorb (xorb (xorb (v (ga q) && xsum 16 (fun i => T i (2 * n * j + gb q)))
                   (v (gb q) && xsum 16 (fun i => T i (2 * n * j + ga q))))
             (xsum 16 (fun i => T i (2 * n * j + n + q))))
       (v (ga q) && v (gb q)).
Proof.
  unfold ohh, osh. cbn [isu]. fold n. rewrite !xsum_xor, !xsum_and. reflexivity.
Qed.

Lemma ost_lowmc tl M mk key pt : rows 16 tS tl -> veq n mk (vxor key (mkey E P tl)) ->
  forall j, j <= R ->
  veq n (ost E P (tbit (aux_tapes E P tl)) None M mk pt j)
        (vxor (lowmc_state L key pt j) (lam P tl j)).
Proof.
  intros Ht Hk. set (T := tbit (aux_tapes E P tl)).
  destruct HI as (_ & HK0 & HLI). fold n W in HK0, HLI. fold R in HLI.
  pose proof (wf_r P (w3_wfP P HP3)) as Hr. fold R in Hr.
  induction j as [|j IH]; intros Hj i Hi.
  - cbn [ost lowmc_state]. fold n W. unfold vxor at 1 2 3.
    rewrite (matvec_ext n _ _ _ i Hk), matvec_xor. unfold mkey at 1. fold n W.
    rewrite <- matvec_matmul, (matvec_identity n _ _ i HK0 Hi).
    change (lm_K L 0) with (mat_of_bytes W (KMatrix E P 0)). change (lm_n L) with n. btauto.
  - assert (Hj' : j < R) by lia. specialize (IH ltac:(lia)).
    cbn [ost lowmc_state]. fold n W m T. set (v := ost E P T None M mk pt j) in *.
    set (s := lowmc_state L key pt j) in *.
    change (lm_K L (S j)) with (mat_of_bytes W (KMatrix E P (S j))).
    change (lm_L L j) with (mat_of_bytes W (LMatrix E P j)).
    change (lm_C L j) with (bit (RConstant E P j)). change (lm_n L) with n. change (lm_m L) with m.
    assert (HS : veq n (hsbox m 0 v (ohh P T None M v j)) (vxor (sbox_layer m s) (ymask E P tl j))).
    { intros k Hk'. rewrite (hsbox_split P HP3 s (lam P tl j) v _ IH (fresh (lam P tl j) (ymask E P tl j))); auto.
      - unfold vxor. f_equal. apply (hsbox_fresh P HP3); auto.
      - intros q Hq. rewrite ohh_none. destruct (ga_lt P HP3 q Hq) as [G1 G2]. fold n in G1, G2.
        destruct (aux_parity tl j q Ht Hj' Hq) as [_ A]. destruct (aux_parity tl j (ga q) Ht Hj' G1) as [B _].
        destruct (aux_parity tl j (gb q) Ht Hj' G2) as [C _]. unfold tpar in A, B, C. fold T in A, B, C.
        rewrite A, B, C. rewrite (IH (ga q)), (IH (gb q)) by auto. unfold gate_par, vxor. btauto. }
    unfold vxor at 1 2 3 4 5. rewrite (matvec_ext n _ _ _ i HS), matvec_xor.
    rewrite (matvec_ext n _ _ _ i Hk), matvec_xor. unfold ymask. fold n W.
    destruct (HLI j Hj') as (_ & _ & HLj).
    rewrite <- matvec_matmul, (matvec_identity n _ _ i HLj Hi). unfold vxor. btauto.
Qed.

(** Without a mask after the last round the result is the ciphertext. *)
Lemma ost_final tl M mk key pt : rows 16 tS tl -> veq n mk (vxor key (mkey E P tl)) ->
  veq n (ost E P (tbit (aux_tapes E P tl)) None M mk pt R) (lowmc_enc L key pt).
Proof.
  intros Ht Hk i Hi. rewrite (ost_lowmc tl M mk key pt Ht Hk R) by auto. unfold vxor, lam. fold R.
  rewrite Nat.ltb_irrefl. apply xorb_false_r.
Qed.
End M.

Lemma nth_repeat_lt {A} (x d : A) k i : i < k -> nth i (repeat x k) d = x.
Proof.
  revert i. induction k as [|k IH]; intros i Hi; [lia|]. destruct i; cbn; [auto|apply IH; lia].
Qed.

(** ** One unopened party *)
Section V.
Variable E : env.
Variable P : paramset.
Hypothesis HP3 : wfP3 P.

Let n := stateSizeBits P.
Let m := numSboxes P.
Let R := numRounds P.
Let W := stateSizeWords P.
Let aB := andSizeBytes P.
Let tS := p3_tapeSize P.

Lemma osh_same T T' u M M' v v' j i q :
  (forall k p, k < 16 -> k <> u -> p < 2 * n * R -> T' k p = T k p) -> i < 16 -> j < R -> q < n ->
  veq n v' v -> M' (n * j + q) = osh P T None M v j u q ->
  osh P T' (Some u) M' v' j i q = osh P T None M v j i q.
Proof.
  intros HT Hi Hj Hq Hv HM. unfold osh at 1. cbn [isu]. fold n.
  destruct (Nat.eqb_spec i u) as [->|Hne]; [exact HM|].
  destruct (ga_lt P HP3 q Hq) as [G1 G2]. fold n in G1, G2.
  assert (J : 2 * n * j + n + n <= 2 * n * R) by (clear - Hj; nia).
  unfold osh. cbn [isu]. fold n. rewrite (Hv (ga q)), (Hv (gb q)) by auto.
  rewrite !HT by (auto; clear - J G1 G2 Hq; lia). reflexivity.
Qed.

Lemma ost_same T T' u M M' key key' pt :
  (forall k p, k < 16 -> k <> u -> p < 2 * n * R -> T' k p = T k p) -> veq n key' key ->
  (forall j q, j < R -> q < n -> M' (n * j + q) = osh P T None M (ost E P T None M key pt j) j u q) ->
  forall j, j <= R -> veq n (ost E P T' (Some u) M' key' pt j) (ost E P T None M key pt j).
Proof.
  intros HT Hk HM. induction j as [|j IH]; intros Hj i Hi.
  - cbn [ost]. fold n W. unfold vxor. f_equal. apply matvec_ext. exact Hk.
  - cbn [ost]. fold n W m. specialize (IH ltac:(lia)). unfold vxor. f_equal; [f_equal|].
    + apply matvec_ext. intros k Hk'. pose proof (w3_m P HP3) as Hnm. fold m n in Hnm.
      apply (hsbox_ext n); [lia|exact IH| |exact Hk'].
      intros q Hq. assert (Hqn : q < n) by lia. unfold ohh.
      destruct (ga_lt P HP3 q Hqn) as [G1 G2]. fold n in G1, G2.
      rewrite (IH (ga q)), (IH (gb q)) by auto. f_equal. apply xsum_ext. intros x Hx.
      apply osh_same; auto; lia.
    + apply matvec_ext. exact Hk.
Qed.

Definition zero_msgs : list bytes := repeat (zeros aB) 16.

Lemma zero_msgs_rows : rows 16 aB zero_msgs.
Proof.
  unfold zero_msgs. split; [apply repeat_length|]. intros i Hi.
  rewrite nth_repeat_lt by auto. split; [apply length_zeros|apply bytes_ok_zeros].
Qed.

Lemma zero_msgs_bit i p : i < 16 -> tbit zero_msgs i p = false.
Proof. intros Hi. unfold tbit, zero_msgs. rewrite nth_repeat_lt by auto. apply bit_zeros. Qed.

Lemma omsgs_rows tl uo ml key pt : rows 16 aB (omsgs E P tl uo ml key pt).
Proof.
  unfold omsgs. split; [rewrite map_length, seq_length; reflexivity|].
  intros i Hi. rewrite nth_map_seq by auto. fold aB. split; apply pack_spec.
Qed.

Lemma omsgs_bit tl uo ml key pt i p : i < 16 -> p < 8 * aB ->
  tbit (omsgs E P tl uo ml key pt) i p =
  if p <? n * R
  then osh P (tbit tl) uo (given_msgs uo ml)
           (ost E P (tbit tl) uo (given_msgs uo ml) key pt (p / n)) (p / n) i (p mod n)
  else tbit ml i p.
Proof.
  intros Hi Hp. unfold tbit at 1, omsgs. rewrite nth_map_seq by auto. fold aB n R.
  match goal with |- bit (pack _ ?f) _ = _ => destruct (pack_spec aB f) as (_ & _ & P3) end.
  rewrite P3. replace (p <? 8 * aB) with true by lia. reflexivity.
Qed.

Lemma omsgs_at tl uo ml key pt i j q : i < 16 -> j < R -> q < n ->
  tbit (omsgs E P tl uo ml key pt) i (n * j + q) =
  osh P (tbit tl) uo (given_msgs uo ml) (ost E P (tbit tl) uo (given_msgs uo ml) key pt j) j i q.
Proof.
  intros Hi Hj Hq. pose proof (aB_nR P HP3) as Ha. fold aB n R in Ha.
  pose proof (pos_lt n j R q Hj Hq) as Hlt.
  rewrite omsgs_bit by (auto; lia). replace (n * j + q <? n * R) with true by lia.
  destruct (row_split n j q Hq) as [-> ->]. reflexivity.
Qed.

(** The verifier's messages: zero except those of the unopened party, which are given. *)
Lemma omsgs_verify tl tl' u key key' pt :
  u < 16 -> rows 16 tS tl -> rows 16 tS tl' ->
  (forall i p, i < 16 -> i <> u -> p < 2 * n * R -> tbit tl' i p = tbit tl i p) -> veq n key' key ->
  let ms := omsgs E P tl None zero_msgs key pt in
  let ml := list_set zero_msgs u (nth u ms []) in
  omsgs E P tl' (Some u) ml key' pt = ms /\
  oout E P tl' (Some u) ml key' pt = oout E P tl None zero_msgs key pt.
Proof.
  intros Hu Ht Ht' HT Hk ms ml. pose proof (aB_nR P HP3) as Ha. fold aB n R in Ha.
  pose proof (n_pos P HP3) as Hn. fold n in Hn.
  assert (Hml : forall p, tbit ml u p = tbit ms u p).
  { intros p. unfold ml, tbit. rewrite nth_list_set by (rewrite (proj1 zero_msgs_rows); auto).
    rewrite Nat.eqb_refl. reflexivity. }
  assert (HM : forall j q, j < R -> q < n -> given_msgs (Some u) ml (n * j + q) =
     osh P (tbit tl) None vzero (ost E P (tbit tl) None vzero key pt j) j u q).
  { intros j q Hj Hq. cbn [given_msgs]. rewrite Hml. unfold ms. rewrite omsgs_at by auto. reflexivity. }
  pose proof (ost_same (tbit tl) (tbit tl') u vzero (given_msgs (Some u) ml) key key' pt HT Hk HM) as HS.
  split.
  - apply (rows_ext 16 aB); [apply omsgs_rows|apply omsgs_rows|].
    intros i p Hi Hp. rewrite omsgs_bit by auto. unfold ms. rewrite omsgs_bit by auto.
    destruct (p <? n * R) eqn:Ep.
    + assert (p / n < R) by (apply Nat.div_lt_upper_bound; clear - Ep Hn; lia).
      assert (p mod n < n) by (apply Nat.mod_upper_bound; clear - Hn; lia).
      apply osh_same; auto. apply HS. lia.
    + rewrite zero_msgs_bit by auto. unfold ml, tbit.
      rewrite nth_list_set by (rewrite (proj1 zero_msgs_rows); auto).
      destruct (Nat.eqb_spec i u) as [->|].
      * change (bit (nth u ms []) p) with (tbit ms u p). unfold ms. rewrite omsgs_bit by auto.
        rewrite Ep. apply zero_msgs_bit; auto.
      * apply zero_msgs_bit; auto.
  - unfold oout. fold n R. apply pack_unique; try apply pack_spec. intros k Hk'.
    match goal with |- bit (pack ?l ?f) _ = _ => destruct (pack_spec l f) as (_ & _ & P3) end.
    rewrite P3. replace (k <? 8 * stateSizeBytes P) with true by lia.
    destruct (k <? n) eqn:Ek; [|reflexivity]. apply (HS R); lia.
Qed.

End V.
