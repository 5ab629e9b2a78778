(** The programs of Picnic3 together: the multiparty computation is LowMC, and the verifier repeats it. *)

From Coq Require Import List NArith Arith Bool Lia ZifyBool ZifyNat ZifyN.
From Verif Require Import Base Params Env Spec LowMC Picnic3 MiniC CodeLowMC CodeP3 CodeSpec CodeZkbSpec CodeP3Spec CodeP3Proto BaseFacts ParamFacts LowMCFacts
  ZkbChal P3Tape P3Aux P3Online P3Mask P3Verify MiniCFacts CodeRules CodeZkbVerThm CodeP3AuxThm CodeP3SimThm.
Import ListNotations.
Local Opaque pack.

Lemma preprocessed_aux U E P tl msk : locals_ok U -> wfP3 P -> env_bytes_ok E -> constants_ok E P -> inverses_ok E P -> preprocessed U E P tl msk ->
  exists tl0, rows 16 (p3_tapeSize P) tl0 /\ tl = aux_tapes E P tl0 /\ msk = aux_key E P tl0.
Proof.
  intros HU HP HE HC HI (st & st' & t & tl0 & qt & q & HM & Hr & Lt & Ht & Hq & L15 & Hk & Lk).
  pose proof (aux_rows E P st tl0 qt (Some q) HM) as HR.
  destruct (computeAuxTape_code U E P st tl0 qt (Some q) HU HP HE HC HI HM) as (z & tz & T' & key & Hz & F & T15 & P15 & PK & _).
  rewrite Hr in Hz. injection Hz as <- <-. rewrite (computeAuxTape_ok E P HP HE HC HI tl0 HR) in F. 
  assert (FT : aux_tapes E P tl0 = T') by congruence. assert (FK : aux_key E P tl0 = key) by congruence. subst T' key.
  destruct (aux_tapes_spec E P HP tl0 HR) as [[LA HA] _].
  exists tl0. split; [exact HR|]. split.
  - apply (@nth_ext bytes _ _ [] []); [transitivity 16; auto|]. intros i Hi. assert (Hi' : i < 16) by (rewrite <- Lt; exact Hi). clear Hi. rename Hi' into Hi. destruct (Nat.eq_dec i 15) as [->|Hne].
    + apply (pts_inj _ _ _ _ _ Hq P15). rewrite L15. symmetry. apply HA. lia.
    + rewrite Ht by lia. symmetry. apply T15. lia.
  - apply (pts_inj _ _ _ _ _ Hk (PK q eq_refl)). rewrite Lk. symmetry. apply pack_spec.
Qed.

(** A run of the online computation and what the signature model says about it. *)
Lemma online_run U E P st tl ml uo mk pt pub qm qs :
  locals_ok U -> wfP3 P -> env_bytes_ok E -> constants_ok E P -> online_call E P st tl ml uo mk pt pub qm qs ->
  exists st' t, run U (c_simulateOnline P 0 (P0 0) 1 2 3 (P0 4) (P0 5) 6 7 8 0 1 2 3) st = Some (st', t) /\
    dv st' 0 = (if eqb_bytes (oout E P tl uo ml (bit mk) (bit pt)) (firstn (stateSizeBytes P) pub) then 0 else 4294967295)%N /\
    (forall i, i < 16 -> pts (nx st) (mm st') (qm i) (nth i (omsgs E P tl uo ml (bit mk) (bit pt)) [])).
Proof.
  intros HU HP HE HC HM. destruct (simulateOnline_code U E P st tl ml uo mk pt pub qm qs HU HP HE HC HM) as (st' & t & b & ml' & Hr & F & Hd & _ & Hp & _).
  pose proof HM as [_ [_ Huo] _ (qk & _ & (_ & Bk & _) & _ & Lk) [LT HT] _ [Lm HMs] (qp & _ & (_ & Bp & _) & _ & Lp) (qb & _ & _ & Lb) _ _ _ _].
  rewrite (simulateOnline_ok E P HP HE HC mk tl ml uo pt pub) in F; [|exact (on_rows E P st tl ml uo mk pt pub qm qs HM)| |exact Huo|exact Lk|exact Bk|exact Lp|exact Bp|exact Lb].
  - assert (F1 : eqb_bytes (oout E P tl uo ml (bit mk) (bit pt)) (firstn (stateSizeBytes P) pub) = b) by congruence.
    assert (F2 : omsgs E P tl uo ml (bit mk) (bit pt) = ml') by congruence. subst b ml'. exists st', t. auto.
  - split; [exact Lm|]. intros i Hi. destruct (HMs i Hi) as (_ & [_ B] & L). auto.
Qed.

Lemma eqb_bytes_bits n a b : length a = n -> bytes_ok a -> bytes_ok b -> n <= length b ->
  eqb_bytes a (firstn n b) = true <-> forall i, i < 8 * n -> bit b i = bit a i.
Proof.
  intros La Ba Bb Lb. assert (Lf : length (firstn n b) = n) by (rewrite firstn_length; lia).
  rewrite eqb_bytes_eq. split.
  - intros H i Hi. rewrite H, bit_firstn by exact Hi. reflexivity.
  - intros H. apply bits_ext; [congruence|exact Ba|exact (bytes_ok_slice b 0 n Bb)|]. intros i Hi. rewrite La in Hi. rewrite bit_firstn by exact Hi. symmetry. auto.
Qed.

Lemma online_is_lowmc U U2 E P st tl ml msk key mk pt pub qm qs :
  locals_ok U -> locals_ok U2 -> wfP3 P -> env_bytes_ok E -> constants_ok E P -> inverses_ok E P ->
  preprocessed U E P tl msk -> masks P msk key mk -> online_call E P st tl ml None mk pt pub qm qs ->
  exists st' t, run U2 (c_simulateOnline P 0 (P0 0) 1 2 3 (P0 4) (P0 5) 6 7 8 0 1 2 3) st = Some (st', t) /\
    (is_ciphertext E P key pt pub -> dv st' 0 = 0%N) /\ (~ is_ciphertext E P key pt pub -> dv st' 0 = 4294967295%N).
Proof.
  intros HU HU2 HP HE HC HI HPre HK HM.
  destruct (preprocessed_aux U E P tl msk HU HP HE HC HI HPre) as (tl0 & HR & -> & ->).
  destruct (online_run U2 E P st _ ml None mk pt pub qm qs HU2 HP HE HC HM) as (st' & t & Hr & Hd & _). exists st', t. split; [exact Hr|].
  pose proof HM as [_ _ _ _ _ _ _ _ (qb & _ & (_ & Bb & _) & Lb) _ _ _ _].
  assert (HF : veq (stateSizeBits P) (ost E P (tbit (aux_tapes E P tl0)) None (given_msgs None ml) (bit mk) (bit pt) (numRounds P)) (lowmc_enc (lowmc_of E P) (bit key) (bit pt))).
  { apply (ost_final E P HP HI); [exact HR|]. intros i Hi. rewrite (HK i Hi). unfold vxor. f_equal.
    unfold aux_key. rewrite (proj2 (proj2 (pack_spec _ _))). pose proof (sB_W P HP) as (B1 & _).
    pose proof (n_sB P HP). rewrite (proj2 (Nat.ltb_lt i (8 * _))), (proj2 (Nat.ltb_lt i _)) by lia. reflexivity. }
  assert (Hiff : eqb_bytes (oout E P (aux_tapes E P tl0) None ml (bit mk) (bit pt)) (firstn (stateSizeBytes P) pub) = true <-> is_ciphertext E P key pt pub).
  { rewrite eqb_bytes_bits; [|apply pack_spec|apply pack_spec|exact Bb|exact Lb]. unfold is_ciphertext, oout.
    split; intros H i Hi; specialize (H i Hi); rewrite (proj2 (proj2 (pack_spec _ _))), (proj2 (Nat.ltb_lt _ _) Hi) in *; rewrite H;
      (destruct (Nat.ltb_spec i (stateSizeBits P)) as [Hn|Hn]; [|reflexivity]); [|symmetry]; apply HF; exact Hn. }
  rewrite Hd. destruct (eqb_bytes _ _); split; intros H; try reflexivity; exfalso.
  - apply H, Hiff. reflexivity.
  - apply Hiff in H. discriminate.
Qed.

Lemma online_replays U U2 E P st st2 tl tl2 ml ml2 u mk mk2 pt pub qm qs qm2 qs2 st' t :
  locals_ok U -> locals_ok U2 -> wfP3 P -> env_bytes_ok E -> constants_ok E P -> u < 16 ->
  online_call E P st tl ml None mk pt pub qm qs -> online_call E P st2 tl2 ml2 (Some u) mk2 pt pub qm2 qs2 ->
  run U (c_simulateOnline P 0 (P0 0) 1 2 3 (P0 4) (P0 5) 6 7 8 0 1 2 3) st = Some (st', t) ->
  (forall i, i < 16 -> nth i ml [] = zeros (andSizeBytes P)) ->
  (forall i, i < 16 -> i <> u -> nth i tl2 [] = nth i tl [] /\ nth i ml2 [] = zeros (andSizeBytes P)) ->
  pts (nx st) (mm st') (qm u) (nth u ml2 []) ->
  (forall i, i < stateSizeBits P -> bit mk2 i = bit mk i) ->
  exists st2' t2 ms, run U2 (c_simulateOnline P 0 (P0 0) 1 2 3 (P0 4) (P0 5) 6 7 8 0 1 2 3) st2 = Some (st2', t2) /\
    dv st2' 0 = dv st' 0 /\
    forall i, i < 16 -> length (nth i ms []) = andSizeBytes P /\ pts (nx st) (mm st') (qm i) (nth i ms []) /\ pts (nx st2) (mm st2') (qm2 i) (nth i ms []).
Proof.
  intros HU HU2 HP HE HC Hu HM HM2 Hr Z H2 Hp Hk.
  destruct (online_run U E P st tl ml None mk pt pub qm qs HU HP HE HC HM) as (z & tz & Hz & Hd & HQ). rewrite Hr in Hz. injection Hz as <- <-.
  destruct (online_run U2 E P st2 tl2 ml2 (Some u) mk2 pt pub qm2 qs2 HU2 HP HE HC HM2) as (st2' & t2 & Hr2 & Hd2 & HQ2).
  pose proof (on_rows E P st tl ml None mk pt pub qm qs HM) as HR. pose proof (on_rows E P st2 tl2 ml2 (Some u) mk2 pt pub qm2 qs2 HM2) as HR2.
  destruct (oc_msgs _ _ _ _ _ _ _ _ _ _ _ HM) as [Lm _]. destruct (oc_msgs _ _ _ _ _ _ _ _ _ _ _ HM2) as [Lm2 HB2].
  assert (Eml : ml = zero_msgs P).
  { apply (@nth_ext bytes _ _ [] []); [rewrite Lm; symmetry; apply zero_msgs_rows|]. intros i Hi. rewrite Lm in Hi. rewrite (Z i Hi). unfold zero_msgs. symmetry. apply nth_repeat_lt, Hi. }
  subst ml. pose proof (omsgs_rows E P tl None (zero_msgs P) (bit mk) (bit pt)) as [LM HMr].
  assert (Eml2 : ml2 = list_set (zero_msgs P) u (nth u (omsgs E P tl None (zero_msgs P) (bit mk) (bit pt)) [])).
  { apply (@nth_ext bytes _ _ [] []); [rewrite length_list_set, Lm2; symmetry; apply zero_msgs_rows|]. intros i Hi. rewrite Lm2 in Hi.
    rewrite nth_list_set by (rewrite (proj1 (zero_msgs_rows P)); exact Hu). destruct (Nat.eqb_spec i u) as [->|Hne].
    - apply (pts_inj _ _ _ _ _ Hp (HQ u Hu)). rewrite (proj1 (HMr u Hu)). apply HB2, Hu.
    - rewrite (proj2 (H2 i Hi Hne)). unfold zero_msgs. symmetry. apply nth_repeat_lt, Hi. }
  destruct (omsgs_verify E P HP tl tl2 u (bit mk) (bit mk2) (bit pt) Hu HR HR2) as [V1 V2].
  { intros i p Hi Hne _. unfold tbit. rewrite (proj1 (H2 i Hi Hne)). reflexivity. }
  { exact Hk. }
  rewrite <- Eml2 in V1, V2. rewrite V1 in HQ2. rewrite V2 in Hd2.
  exists st2', t2, (omsgs E P tl None (zero_msgs P) (bit mk) (bit pt)). split; [exact Hr2|]. split; [congruence|].
  intros i Hi. split; [apply HMr, Hi|]. split; [apply HQ, Hi|apply HQ2, Hi].
Qed.

(** Two signers with keys and public keys of their own show the same. *)
Lemma online_sign_constant_time U U' V V' E P x y tl tl' ml ml' msk msk' key key' mk mk' pt pt' pub pub' qm qs qm' qs' x' t y' t' :
  locals_ok U -> locals_ok U' -> locals_ok V -> locals_ok V' -> wfP3 P -> env_bytes_ok E -> constants_ok E P -> inverses_ok E P ->
  preprocessed V E P tl msk -> masks P msk key mk -> online_call E P x tl ml None mk pt pub qm qs -> is_ciphertext E P key pt pub ->
  preprocessed V' E P tl' msk' -> masks P msk' key' mk' -> online_call E P y tl' ml' None mk' pt' pub' qm' qs' -> is_ciphertext E P key' pt' pub' ->
  same_public x y ->
  let c := c_simulateOnline P 0 (P0 0) 1 2 3 (P0 4) (P0 5) 6 7 8 0 1 2 3 in
  run U c x = Some (x', t) -> run U' c y = Some (y', t') -> t = t'.
Proof.
  intros HU HU' HV HV' HP HE HC HI A1 A2 A3 A4 B1 B2 B3 B4 S c R1 R2.
  destruct (online_is_lowmc V U E P x tl ml msk key mk pt pub qm qs HV HU HP HE HC HI A1 A2 A3) as (z & tz & Rz & Z & _). fold c in Rz. rewrite R1 in Rz. injection Rz as <- <-.
  destruct (online_is_lowmc V' U' E P y tl' ml' msk' key' mk' pt' pub' qm' qs' HV' HU' HP HE HC HI B1 B2 B3) as (z & tz & Rz & Z' & _). fold c in Rz. rewrite R2 in Rz. injection Rz as <- <-.
  apply (simulateOnline_constant_time U U' P x y x' t y' t' HU HU' S R1 R2); auto.
Qed.
