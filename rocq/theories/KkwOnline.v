(** The code computes the masks, auxiliary bits and broadcasts of KkwSpec.v. *)

From Coq Require Import List NArith Arith Bool Btauto Lia ZifyBool ZifyNat ZifyN.
From Verif Require Import Base Params Env Spec LowMC Picnic3 BaseFacts ParamFacts LowMCFacts UtilFacts
  LowMCInj Hint ZkbMpc ZkbChal P3Tape P3Aux P3Online ZkbppSpec KkwSpec ZkbppProofs.
Import ListNotations.

Local Opaque pack.

Section O.
Variable E : env.
Variable P : paramset.
Variable sp : sparams.
Hypothesis HP3 : wfP3 P.
Hypothesis CF : conforms P sp.

Let n := stateSizeBits P.
Let m := numSboxes P.
Let R := numRounds P.
Let W := stateSizeWords P.
Let sB := stateSizeBytes P.
Let aB := andSizeBytes P.
Let tS := p3_tapeSize P.
Let L := lowmc_of E P.
Let Ki := spec_K0inv E P.
Let Li := spec_Linv E P.

Lemma sp_n_eq : sp_n sp = n. Proof. symmetry. apply (cf_n P sp CF). Qed.
Lemma sp_r_eq : sp_r sp = R. Proof. symmetry. apply (cf_r P sp CF). Qed.
Lemma sp_N_eq : sp_N sp = 16. Proof. rewrite <- (cf_N P sp CF). apply (w3_N P HP3). Qed.

Lemma and_left_ga v q : and_left v q = v (ga q).
Proof.
  pose proof (Nat.div_mod q 3 ltac:(lia)) as Hq. pose proof (Nat.mod_upper_bound q 3 ltac:(lia)) as Hm.
  rewrite Hq at 1. rewrite and_left_at by auto. reflexivity.
Qed.
Lemma and_right_gb v q : and_right v q = v (gb q).
Proof.
  pose proof (Nat.div_mod q 3 ltac:(lia)) as Hq. pose proof (Nat.mod_upper_bound q 3 ltac:(lia)) as Hm.
  rewrite Hq at 1. rewrite and_right_at by auto. reflexivity.
Qed.

Lemma gate_mask_eq a b q : gate_mask a b q = fresh a b q.
Proof.
  unfold gate_mask, fresh. cbv zeta. destruct (q mod 3) as [|[|x]]; btauto.
Qed.

Lemma bytes_of_pack k len f g : octets k = len -> (forall i, i < k -> f i = g i) ->
  (forall i, k <= i -> i < 8 * len -> g i = false) -> bytes_of k f = pack len g.
Proof.
  intros Hk H1 H2. destruct (bytes_of_spec k f) as (A1 & A2 & A3). destruct (pack_spec len g) as (B1 & B2 & B3).
  apply bits_ext; auto; [congruence|]. intros i Hi. rewrite A3, B3.
  replace (i <? 8 * len) with true by lia.
  destruct (Nat.ltb_spec i k); [auto|]. symmetry. apply H2; lia.
Qed.

Lemma aB_octets : octets (sp_n sp * sp_r sp) = aB.
Proof.
  unfold aB. rewrite sp_n_eq, sp_r_eq. rewrite octets_eq, (wf_aB P (w3_wfP P HP3)).
  rewrite (w3_m P HP3). reflexivity.
Qed.

(** *** Masks *)
Section M.
Variable tp : nat -> vec.
Variable tl : list bytes.
Hypothesis Htl : rows 16 tS tl.
Hypothesis Htp : forall j p, j < 16 -> tp j p = tbit tl j p.

Lemma mask_eq i k : mask sp tp i k = lam P tl i k.
Proof.
  unfold mask, lam. rewrite sp_n_eq, sp_r_eq, sp_N_eq. fold n R. destruct (i <? R); [|reflexivity].
  unfold tpar. apply xsum_ext. intros j Hj. apply Htp; auto.
Qed.

Lemma key_mask_eq k : key_mask sp Ki tp k = mkey E P tl k.
Proof.
  unfold key_mask, mkey. rewrite sp_n_eq. fold n W. unfold Ki, spec_K0inv. fold W.
  apply matvec_ext. intros l _. apply mask_eq.
Qed.

Lemma sbox_mask_eq i k : sbox_mask sp L Ki Li tp i k = ymask E P tl i k.
Proof.
  unfold sbox_mask, ymask. rewrite sp_n_eq. fold n W. unfold Li, spec_Linv. fold W.
  apply matvec_ext. intros l _. unfold vxor. rewrite mask_eq. f_equal.
  change (lm_K L (S i)) with (mat_of_bytes W (KMatrix E P (S i))).
  apply matvec_ext. intros l' _. apply key_mask_eq.
Qed.

Lemma aux_bit_eq i q : aux_bit sp L Ki Li tp i q = auxbit E P tl i q.
Proof.
  unfold aux_bit, auxbit, gate_par. rewrite gate_mask_eq, and_left_ga, and_right_gb, !mask_eq.
  rewrite sp_N_eq, sp_n_eq. change (16 - 1) with 15. fold n.
  replace (fresh (mask sp tp i) (sbox_mask sp L Ki Li tp i) q) with (fresh (lam P tl i) (ymask E P tl i) q).
  2:{ unfold fresh. cbv zeta. rewrite !mask_eq, !sbox_mask_eq. reflexivity. }
  f_equal. apply xsum_ext. intros j Hj. apply Htp. lia.
Qed.

Lemma aux_bytes_eq : aux_bytes sp L Ki Li tp = aux_of P (aux_tapes E P tl).
Proof.
  destruct (aux_tapes_spec E P HP3 tl Htl) as (A1 & A2 & A3 & A4 & A5). fold n R in A5.
  pose proof (n_pos P HP3) as Hn. fold n in Hn.
  unfold aux_bytes, aux_of. fold n R aB. apply bytes_of_pack; [apply aB_octets|..]; rewrite sp_n_eq, sp_r_eq.
  - intros p Hp. replace (p <? n * R) with true by lia. rewrite aux_bit_eq. symmetry. apply A5.
    + apply Nat.div_lt_upper_bound; lia.
    + apply Nat.mod_upper_bound; lia.
  - intros p Hp _. replace (p <? n * R) with false by lia. reflexivity.
Qed.

Lemma set_aux_row (aux : nat -> nat -> bool) (tl' : list bytes) :
  rows 16 tS tl' ->
  (forall i q, i < 15 -> tbit tl' i q = tbit tl i q) ->
  (forall j q, j < R -> q < n -> tbit tl' 15 (2 * n * j + q) = tbit tl 15 (2 * n * j + q)) ->
  (forall q, 2 * n * R <= q -> tbit tl' 15 q = tbit tl 15 q) ->
  (forall j q, j < R -> q < n -> tbit tl' 15 (2 * n * j + n + q) = aux j q) ->
  forall j p, j < 16 -> set_aux sp tp aux j p = tbit tl' j p.
Proof.
  intros H1 H2 H3 H4 H5 j p Hj. unfold set_aux. rewrite sp_n_eq, sp_r_eq, sp_N_eq. change (16 - 1) with 15.
  destruct (Nat.eqb_spec j 15) as [->|Hne].
  2:{ cbn [andb]. rewrite Htp by auto. symmetry. apply H2. lia. }
  cbn [andb]. pose proof (n_pos P HP3) as Hn. fold n in Hn.
  destruct (pos_inv n p Hn) as [Hp Ho]. set (a := p / (2 * n)) in *. set (o := p mod (2 * n)) in *.
  destruct (Nat.ltb_spec a R) as [Ha|Ha]; cbn [andb].
  - destruct (Nat.leb_spec n o) as [Hno|Hno].
    + rewrite Hp. replace (2 * n * a + o) with (2 * n * a + n + (o - n)) by lia. symmetry. apply H5; auto. lia.
    + rewrite Htp by auto. rewrite Hp. symmetry. apply H3; auto.
  - rewrite Htp by auto. symmetry. apply H4. rewrite Hp. assert (n * R <= n * a) by (apply Nat.mul_le_mono_l; auto). lia.
Qed.

Lemma set_aux_tapes j p : j < 16 ->
  set_aux sp tp (aux_bit sp L Ki Li tp) j p = tbit (aux_tapes E P tl) j p.
Proof.
  destruct (aux_tapes_spec E P HP3 tl Htl) as (A1 & A2 & A3 & A4 & A5).
  apply set_aux_row; auto. intros i q Hi Hq. rewrite aux_bit_eq. apply A5; auto.
Qed.

Lemma set_aux_with a j p : j < 16 ->
  set_aux sp tp (fun i q => bit a (sp_n sp * i + q)) j p = tbit (with_aux P tl a) j p.
Proof.
  destruct (with_aux_spec P HP3 tl a Htl) as (A1 & A2 & A3 & A4 & A5).
  apply set_aux_row; auto. intros i q Hi Hq. rewrite sp_n_eq. apply A5; auto.
Qed.
End M.

(** *** Online phase *)
Section S.
Variable tp : nat -> vec.
Variable tl : list bytes.
Variables x p x' p' : vec.
Hypothesis Hx : veq n x x'.
Hypothesis Hp : veq n p p'.
Variable uo : option nat.
Hypothesis Htp : forall j p, j < 16 -> isu uo j = false -> tp j p = tbit tl j p.
Variable ml : list bytes.
Variable hid : option (nat * vec).
Hypothesis Huo : match hid, uo with
                 | None, None => True
                 | Some (h, ms), Some u => h = u /\ forall q, ms q = given_msgs uo ml q
                 | _, _ => False
                 end.
Let M := given_msgs uo ml.

Lemma message_eq v i j q : j < 16 -> message sp tp hid v i j q = osh P (tbit tl) uo M v i j q.
Proof.
  intros Hj. unfold message, osh. rewrite sp_n_eq, !and_left_ga, !and_right_gb. fold n. pose proof (Htp j) as Ht.
  destruct hid as [[h ms]|], uo as [u|]; try contradiction; cbn [isu] in *.
  - destruct Huo as [-> Hms].
    destruct (j =? u); [apply Hms|rewrite !Ht by auto; reflexivity].
  - rewrite !Ht by auto; reflexivity.
Qed.

Lemma masked_gate_eq v i q : masked_gate sp tp hid v i q = ohh P (tbit tl) uo M v i q.
Proof.
  unfold masked_gate, ohh. rewrite sp_N_eq, and_left_ga, and_right_gb. f_equal.
  apply xsum_ext. intros j Hj. apply message_eq; auto.
Qed.

Lemma masked_state_eq i : veq n (masked_state sp L tp hid x p i) (ost E P (tbit tl) uo M x' p' i).
Proof.
  pose proof (w3_m P HP3) as Hm. fold m n in Hm.
  induction i as [|i IH]; intros k Hk; cbn [masked_state ost]; cbv zeta; fold n W.
  - rewrite sp_n_eq. unfold vxor. rewrite Hp by auto. f_equal. apply matvec_ext. exact Hx.
  - unfold mpc_round, vxor, when. rewrite sp_n_eq. cbn [andb]. f_equal; [f_equal|].
    + apply matvec_ext. intros l Hl.
      rewrite (mpc_sbox_h P sp CF _ _ (ohh P (tbit tl) uo M (masked_state sp L tp hid x p i) i) 0).
      * apply (hsbox_ext n); [fold m; lia|exact IH| |exact Hl].
        intros q Hq. apply ohh_ext; auto. fold m in Hq. fold n. lia.
      * intros q _. apply masked_gate_eq.
    + apply matvec_ext. exact Hx.
Qed.

Lemma state_ext i q j : j < 16 -> q < n ->
  message sp tp hid (masked_state sp L tp hid x p i) i j q =
  osh P (tbit tl) uo M (ost E P (tbit tl) uo M x' p' i) i j q.
Proof.
  intros Hj Hq. rewrite message_eq by auto. apply osh_ext; auto. apply masked_state_eq.
Qed.

(** [ml] holds zeros after the messages. *)
Lemma message_bytes_eq j : j < 16 -> (forall q, n * R <= q -> tbit ml j q = false) ->
  message_bytes sp L tp hid x p j = nth j (omsgs E P tl uo ml x' p') [].
Proof.
  intros Hj Hz. pose proof (n_pos P HP3) as Hn. fold n in Hn.
  unfold message_bytes, omsgs. rewrite nth_map_seq by auto. fold n R aB M.
  apply bytes_of_pack; [apply aB_octets|..]; rewrite sp_n_eq, sp_r_eq.
  - intros q Hq. replace (q <? n * R) with true by lia. apply state_ext; auto.
    apply Nat.mod_upper_bound; lia.
  - intros q Hq _. replace (q <? n * R) with false by lia. apply Hz; auto.
Qed.

Lemma output_eq :
  bytes_of (sp_n sp) (masked_state sp L tp hid x p (sp_r sp)) = oout E P tl uo ml x' p'.
Proof.
  unfold oout. fold n R sB M. rewrite sp_n_eq, sp_r_eq. apply bytes_of_pack.
  - unfold n, sB. rewrite (cf_nB P sp CF), (cf_n P sp CF). reflexivity.
  - intros i Hi. replace (i <? n) with true by lia. apply masked_state_eq. auto.
  - intros i Hi _. replace (i <? n) with false by lia. reflexivity.
Qed.
End S.
End O.
