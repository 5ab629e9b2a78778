(** [computeAuxTape] on memory with pointers. *)

From Coq Require Import List NArith Arith Bool Lia ZifyBool ZifyNat ZifyN.
From Verif Require Import Base Params Env Spec LowMC Tree Picnic3 MiniC CodeLowMC CodeP3 CodeSpec CodeZkbSpec CodeP3Spec BaseFacts ParamFacts LowMCFacts
  ZkbChal P3Tape P3Aux P3Online MiniCFacts CodeRules CodeLowMCProofs CodeHeap CodeZkbProofs CodeZkbBits CodeZkbMpc CodeP3Proofs CodeP3Lin CodeP3Aux.
Import ListNotations.
Local Opaque pack.

Section A.
Variables (n0 : nat) (m0 : memory) (U : nat -> nat -> bytes) (HU : locals_ok U).
Notation heap := (heap n0 m0).
Notation ro := (ro n0 m0).
Variables (E : env) (P : paramset).
Hypothesis HP3 : wfP3 P.
Hypothesis HE : env_bytes_ok E.
Hypothesis HC : constants_ok E P.
Hypothesis HI : inverses_ok E P.
Let HP := w3_wfP P HP3.
Let tS := p3_tapeSize P.
Let W := stateSizeWords P.
Let sB := stateSizeBytes P.
Let nb := stateSizeBits P.
Let R := numRounds P.
Variables (L : layout) (T0 : list bytes) (ps : list ptr) (b : nat).
Hypothesis Hb : 0 < b.
Hypothesis HL : cnt L = b + 5.
Hypothesis S0 : sz L 0 = tS.
Hypothesis HT0 : rows 16 tS T0.
Hypothesis Hps : forall i, i < 15 -> exists q, nth_error ps i = Some q /\ ro L q (nth i T0 []).
Hypothesis Hps15 : nth_error ps 15 = Some (reg L 0).
Hypothesis Sl : forall i, i < 5 -> sz L (b + i) = 64 /\ aligned (reg L (b + i)).

(** The locals: roundKey, x, y, key, key0. *)
Lemma runs_computeAux y c K KI LI (Q : state -> Prop) :
  pv y 0 = ps -> pv y 2 = K -> pv y 3 = KI -> pv y 4 = LI -> (forall i, i < 5 -> pv y (5 + i) = [reg L (b + i)]) ->
  (forall i, i < R + 1 -> exists q, nth_error K i = Some q /\ ro L q (KMatrix E P i) /\ aligned q) ->
  (forall i, i < 1 -> exists q, nth_error KI i = Some q /\ ro L q (KMatrixInv E P i) /\ aligned q) ->
  (forall i, i < R -> exists q, nth_error LI i = Some q /\ ro L q (LMatrixInv E P i) /\ aligned q) ->
  iv y 0 = 0 -> (iv y 1 <> 0 -> 1 < b /\ pv y 1 = [reg L 1] /\ sz L 1 = sB) ->
  c b = uninit E site_aux_roundKey 0 64 -> c (b + 2) = uninit E site_aux_y 0 64 -> c (b + 3) = uninit E site_aux_key 0 64 -> c (b + 4) = uninit E site_aux_key0 0 64 ->
  heap L (nx y) (mm y) c ->
  (forall iv' dv' m' u c' key, heap L (nx y) m' c' -> computeAuxTape E P (mkTapes (tapes_of 0 T0 c) 0) = Ok (mkTapes (tapes_of 0 T0 c') 0, key) ->
     (iv y 1 <> 0 -> c' 1 = key) -> iv' 0 = 0 -> Q (mkState iv' dv' (pv y) m' (nx y) u)) ->
  runs U (MemSet (P0 6) 0 (IC 64) ;;
    St 4 (elem 4 (P0 9) (IC (W - 1))) (DC 0) ;;
    c_tapesToParityBits (P0 9) (IC nb) 0 0 ;;
    c_matrix_mul P (P0 8) (P0 9) (PV 3 (IC 0)) ;;
    If (CEq (IV 1) (IC 0)) Skip (MemCpy (P0 1) (P0 8) (IC (stateSizeBytes P))) ;;
    For 2 (IC 0) (IC (numRounds P)) 1
      (ISet 3 (ISub (IC (numRounds P)) (IV 2)) ;;
       c_matrix_mul P (P0 5) (P0 8) (PV 2 (IV 3)) ;;
       c_xor_array (P0 6) (P0 6) (P0 5) (IC W) ;;
       c_matrix_mul P (P0 7) (P0 6) (PV 4 (ISub (IV 3) (IC 1))) ;;
       If (CEq (IV 3) (IC 1))
         (MemCpy (P0 6) (P0 9) (IC (stateSizeBytes P)))
         (ISet 0 (IMul (IMul (IC nb) (IC 2)) (ISub (IV 3) (IC 1))) ;;
          c_tapesToParityBits (P0 6) (IC nb) 0 0) ;;
       ISet 0 (IAdd (IMul (IMul (IC nb) (IC 2)) (ISub (IV 3) (IC 1))) (IC nb)) ;;
       c_aux_mpc_sbox P (P0 6) (P0 7) 0 0) ;;
    ISet 0 (IC 0))%c y Q.
Proof.
  intros Ep0 EpK EpKI EpLI Epl HK HKI HLI I0 Hin U1 U2 U3 U4 H HQ.
  pose proof (wf_W0 P HP) as W0. pose proof (wf_W2 P HP) as W2. pose proof (wf_sB P HP) as WsB. pose proof (wf_n P HP) as Wn. pose proof (wf_W1 P HP) as W1. pose proof (wf_W3 P HP) as W3.
  pose proof (numBytes_spec nb) as NB. unfold nb in NB. rewrite <- WsB in NB. fold sB in NB. fold W in W0, W1, W2, W3. fold nb in Wn, W1, W2, NB.
  pose proof (w3_m P HP3) as Wm. fold nb in Wm.
  assert (Ht : 2 * nb * R <= 8 * tS) by (apply (tS_bits P HP3)).
  destruct HC as (CK & CL & _). fold R nb W in CK. destruct HI as ((KIl & KIb) & _ & CLI). fold R nb W in KIl, CLI.
  destruct y as [yi yd yp ym yn yu]. cbn [iv dv pv mm nx ct] in *.
  destruct (Sl 0 ltac:(lia)) as [Sr Ar]. destruct (Sl 1 ltac:(lia)) as [Sx Ax]. destruct (Sl 2 ltac:(lia)) as [Sy Ay]. destruct (Sl 3 ltac:(lia)) as [Sk Ak]. destruct (Sl 4 ltac:(lia)) as [Sk0 Ak0].
  rewrite Nat.add_0_r in Sr, Ar.
  pose proof (Epl 0 ltac:(lia)) as E5. pose proof (Epl 1 ltac:(lia)) as E6. pose proof (Epl 2 ltac:(lia)) as E7. pose proof (Epl 3 ltac:(lia)) as E8. pose proof (Epl 4 ltac:(lia)) as E9.
  cbn [Nat.add] in E5, E6, E7, E8, E9. rewrite Nat.add_0_r in E5. clear Epl Sl.
  assert (Lc : forall m cc k, heap L yn m cc -> k < b + 5 -> length (cc k) = sz L k /\ bytes_ok (cc k)).
  { intros m cc k Hh Hk. split; [apply (heap_len _ _ _ _ _ _ Hh)|apply (heap_ok _ _ _ _ _ _ Hh)]; rewrite HL; exact Hk. }
  assert (Cn0 : 0 < cnt L) by lia.
  (* memset *)
  apply runs_seq. apply (h_memset0 n0 m0 U L (P0 6) (IC 64) _ c (b + 1)); csimpl; [rewrite E6; reflexivity|lia|lia|lia|exact H|]. intros m1 H1. rewrite Sx in H1. set (c1 := cset c (b + 1) _) in H1.
  (* store *)
  apply runs_seq. apply (h_stw n0 m0 U L 4 _ _ _ c1 (b + 4) (4 * (W - 1))); csimpl.
  { rewrite E9. cbn [nth_error]. destruct (reg L (b + 4)). reflexivity. }
  { lia. } { lia. } { rewrite Sk0. lia. } { apply mod4_add, Ak0. } { exact H1. }
  intros m2 H2. change (bytes_of_word 4 0) with (zeros 4) in H2. set (c2 := cset c1 (b + 4) _) in H2.
  (* key0 *)
  assert (Hrow : forall cc k d, k <> 0 -> row_at n0 m0 L (cset cc k d) ps (tapes_of 0 T0 cc)).
  { intros cc k d Hk. apply (row_same n0 m0 P L 0 T0 ps Cn0 S0 HT0 Hps Hps15). apply cset_neq. congruence. }
  assert (Hrs : forall m cc, heap L yn m cc -> rows 16 tS (tapes_of 0 T0 cc)) by (intros m cc Hh; apply (tapes_rows n0 m0 P L 0 T0 ps Cn0 S0 HT0 Hps yn m cc Hh)).
  assert (Row15 : forall m cc i, heap L yn m cc -> i < 16 -> length (nth i (tapes_of 0 T0 cc) []) = tS) by (intros m cc i Hh Hi; apply (Hrs m cc Hh), Hi).
  assert (Tc2 : tapes_of 0 T0 c2 = tapes_of 0 T0 c) by (apply tapes_same; unfold c2, c1; csets; reflexivity).
  assert (R0 : 0 < R) by (apply (wf_r P HP)).
  assert (nb1 : nb <= 8 * tS) by nia.
  apply runs_seq. apply (h_tapesToParityBits n0 m0 U HU L (P0 9) (IC nb) 0 0 _ c2 (b + 4) (tapes_of 0 T0 c2)); csimpl.
  { rewrite E9. reflexivity. } { lia. } { rewrite Sk0. lia. } { intros d. rewrite Ep0. apply Hrow. lia. }
  { intros i Hi. rewrite (Row15 _ _ _ H2 Hi), I0. exact nb1. } { exact H2. }
  intros m3 u3 H3. rewrite I0 in *. cbn [Nat.add] in *. rewrite Tc2 in H3. set (key0 := parity_bits _ _ _ _) in H3. set (c3 := cset c2 (b + 4) key0) in H3.
  assert (F0 : blit (uninit E site_aux_key0 0 64) (4 * (W - 1)) (zeros 4) = Ok (c2 (b + 4))).
  { unfold c2. rewrite cset_eq. assert (Ec : c1 (b + 4) = c (b + 4)) by (unfold c1; csets; reflexivity). rewrite Ec, <- U4. apply blit_ok.
    rewrite (proj1 (Lc _ _ (b + 4) H ltac:(lia))), length_zeros, Sk0. lia. }
  assert (F1 : tapesToParityBits E (c2 (b + 4)) nb (mkTapes (tapes_of 0 T0 c) 0) = Ok (key0, mkTapes (tapes_of 0 T0 c) nb)).
  { apply (parity_bits_model E P); [exact HE|apply (Hrs _ _ H)|exact nb1|]. rewrite (proj1 (Lc _ _ (b + 4) H2 ltac:(lia))), Sk0. lia. }
  (* key *)
  destruct (Lc _ _ (b + 4) H3 ltac:(lia)) as [Lk0 Bk0]. destruct (HKI 0 ltac:(lia)) as (qki & Eki & Rki & Aki).
  apply runs_seq. apply (h_matrix_mul n0 m0 U HU L E P HP HE (P0 8) (P0 9) (PV 3 (IC 0)) _ c3 (b + 3) (reg L (b + 4)) qki (c3 (b + 4)) (KMatrixInv E P 0)); csimpl.
  { rewrite E8. reflexivity. } { rewrite E9. reflexivity. } { rewrite EpKI. exact Eki. } { lia. } { rewrite Sk. fold W. lia. }
  { right. exists (b + 4). split; [lia|auto]. } { exact Bk0. } { rewrite Lk0, Sk0. fold nb. lia. } { exact Ak0. } { exact Rki. } { exact Aki. } { exact KIb. } { exact KIl. } { exact H3. }
  intros m4 key u4 F2 H4. unfold set_mc. flat. assert (Ek0 : c3 (b + 4) = key0) by (unfold c3; csets; reflexivity). rewrite Ek0 in F2.
  assert (Ek3 : c3 (b + 3) = uninit E site_aux_key 0 64) by (unfold c3, c2, c1; csets; exact U3). rewrite Ek3 in F2.
  set (c4 := cset c3 (b + 3) key) in H4.
  assert (K4 : c4 (b + 3) = key) by (unfold c4; csets; reflexivity). destruct (Lc _ _ (b + 3) H4 ltac:(lia)) as [Lk Bk]. rewrite K4 in Lk, Bk. rewrite Sk in Lk.
  (* inputs *)
  apply runs_seq.
  assert (HIn : forall Q' : state -> Prop, (forall m5 c5, heap L yn m5 c5 -> (forall k, k = 0 \/ b <= k -> c5 k = c4 k) -> (yi 1 <> 0 -> c5 1 = firstn sB key) ->
      Q' (mkState (upd yi 0 nb) yd yp m5 yn u4)) ->
    runs U (If (CEq (IV 1) (IC 0)) Skip (MemCpy (P0 1) (P0 8) (IC (stateSizeBytes P)))) (mkState (upd yi 0 nb) yd yp m4 yn u4) Q').
  { intros Q' HQ'. eapply runs_if; [reflexivity|]. csimpl. destruct (Nat.eqb_spec (yi 1) 0) as [Hz|Hz].
    - apply runs_skip. apply (HQ' m4 c4 H4); [auto|congruence].
    - destruct (Hin Hz) as (b1 & Ep1 & S1). apply (h_memcpy_part n0 m0 U L (P0 1) (P0 8) _ _ c4 1 (reg L (b + 3)) (c4 (b + 3))); csimpl.
      { rewrite Ep1. reflexivity. } { rewrite E8. reflexivity. } { lia. }
      { intros He. destruct (heap_disj n0 m0 L yn m4 c4 (b + 3) 1 H4 ltac:(lia) ltac:(lia) ltac:(lia)) as [X|[X|X]]; [congruence| |]; rewrite He in X; fold sB in S1; rewrite ?S1, ?Sk in X; lia. }
      { right. exists (b + 3). split; [lia|auto]. } { rewrite K4. exact Bk. } { rewrite S1. unfold sB. lia. } { rewrite K4, Lk. fold sB. lia. } { fold sB. lia. } { exact H4. }
      intros m5 H5. fold sB in H5. rewrite K4 in H5. eapply HQ'; [exact H5| |].
      + intros k Hk. csets. reflexivity.
      + intros _. rewrite cset_eq. pose proof (proj1 (Lc _ _ 1 H4 ltac:(lia))) as L1. rewrite S1 in L1. pose proof (firstn_length sB key) as Lf.
        pose proof (blit0_all (c4 1) (firstn sB key) ltac:(lia)) as X. rewrite blit_ok in X by lia. injection X as X. exact X. }
  apply HIn. clear HIn. intros m5 c5 H5 C5 C51. flat.
  assert (Ca : forall k, k = 0 \/ k = b \/ k = b + 2 -> c4 k = c k) by (intros k Hk; unfold c4, c3, c2, c1; csets; reflexivity).
  assert (Cx : c4 (b + 1) = zeros 64) by (unfold c4, c3, c2, c1; csets; reflexivity).
  assert (C04 : c4 (b + 4) = key0) by (unfold c4, c3; csets; reflexivity).
  unfold computeAuxTape in HQ. fold nb W sB R in HQ. change LOWMC_MAX_STATE_BYTES with 64 in HQ. cbv zeta in HQ.
  rewrite F0, bind_Ok, F1, bind_Ok, F2, bind_Ok in HQ. rewrite (slice0_ok key), bind_Ok in HQ by lia.
  match type of HQ with context [for_down R ?f _] => set (fbody := f) in HQ end.
  rewrite <- U1, <- U2 in HQ.
  match type of HQ with context [for_down R fbody ?a] => set (s0 := a) in HQ end.
  assert (T5 : tapes_of 0 T0 c5 = tapes_of 0 T0 c) by (apply tapes_same; rewrite C5, Ca by lia; reflexivity).
  apply runs_seq. apply runs_for with (I := fun k z => pv z = yp /\ nx z = yn /\ exists c' p, heap L yn (mm z) c' /\
    for_down R fbody s0 = for_down (R - k) fbody (mkTapes (tapes_of 0 T0 c') p, c' b, c' (b + 1), c' (b + 2)) /\
    c' (b + 3) = key /\ c' (b + 4) = key0 /\ (yi 1 <> 0 -> c' 1 = firstn sB key)).
  - cbn [pv nx mm]. split; [reflexivity|]. split; [reflexivity|]. exists c5, nb. split; [exact H5|]. split; [|split; [|split]].
    + rewrite Nat.sub_0_r, T5, !C5 by lia. rewrite (Ca b), (Ca (b + 2)), Cx by lia. reflexivity.
    + rewrite C5 by lia. exact K4.
    + rewrite C5 by lia. exact C04.
    + exact C51.
  - csimpl. rewrite Nat.sub_0_r, Nat.add_0_r, Nat.div_1_r. fold R. intros k z Hk (Zp & Zn & c' & p & Hh & Hf & Hkey & Hkey0 & Hin1).
    destruct z as [zi zd zp zm zn zu]. cbn [pv nx mm] in Zp, Zn, Hh. subst zp zn. cbn [Nat.add]. rewrite Nat.mul_1_r.
    set (r := R - k). assert (Hr : 1 <= r <= R) by (unfold r; lia).
    apply runs_seq, runs_iset. csimpl. fold r. flat. set (iv1 := upd _ 3 r). assert (I3 : iv1 3 = r) by reflexivity. clearbody iv1.
    destruct (Lc _ _ (b + 3) Hh ltac:(lia)) as [Lkk Bkk]. destruct (HK r ltac:(lia)) as (qk & Ek & Rk & Akk). destruct (CK r ltac:(lia)) as [LK BK].
    apply runs_seq. apply (h_matrix_mul n0 m0 U HU L E P HP HE (P0 5) (P0 8) _ _ c' b (reg L (b + 3)) qk (c' (b + 3)) (KMatrix E P r)); csimpl.
    { rewrite E5. reflexivity. } { rewrite E8. reflexivity. } { rewrite EpK, I3. exact Ek. } { lia. } { rewrite Sr. fold W. lia. }
    { right. exists (b + 3). split; [lia|auto]. } { exact Bkk. } { rewrite Lkk, Sk. fold nb. lia. } { exact Ak. } { exact Rk. } { exact Akk. } { exact BK. } { exact LK. } { exact Hh. }
    intros ma ra ua Fa Ha. unfold set_mc. flat. rewrite Hkey in Fa. set (ca := cset c' b ra) in Ha.
    destruct (Lc _ _ b Ha ltac:(lia)) as [Lra Bra]. destruct (Lc _ _ (b + 1) Ha ltac:(lia)) as [Lx1 Bx1].
    apply runs_seq. apply (h_xor_array n0 m0 U L (P0 6) (P0 6) (P0 5) (IC W) _ ca (b + 1) (reg L (b + 1)) (reg L b) (ca (b + 1)) (ca b)); csimpl.
    { rewrite E6. reflexivity. } { rewrite E6. reflexivity. } { rewrite E5. reflexivity. } { lia. } { rewrite Sx. lia. }
    { right. exists (b + 1). split; [lia|auto]. } { right. exists b. split; [lia|auto]. } { rewrite Lx1, Sx. lia. } { rewrite Lra, Sr. lia. } { exact Bx1. } { exact Bra. } { exact Ax. } { exact Ax. } { exact Ar. } { exact Ha. }
    intros mb rb Fb Hbh. flat. set (cb := cset ca (b + 1) rb) in Hbh.
    destruct (Lc _ _ (b + 1) Hbh ltac:(lia)) as [Lxb Bxb]. destruct (HLI (r - 1) ltac:(lia)) as (ql & El & Rl & All). destruct (CLI (r - 1) ltac:(lia)) as (LLI & BLI & _).
    apply runs_seq. apply (h_matrix_mul n0 m0 U HU L E P HP HE (P0 7) (P0 6) _ _ cb (b + 2) (reg L (b + 1)) ql (cb (b + 1)) (LMatrixInv E P (r - 1))); csimpl.
    { rewrite E7. reflexivity. } { rewrite E6. reflexivity. } { rewrite EpLI, I3. exact El. } { lia. } { rewrite Sy. fold W. lia. }
    { right. exists (b + 1). split; [lia|auto]. } { exact Bxb. } { rewrite Lxb, Sx. fold nb. lia. } { exact Ax. } { exact Rl. } { exact All. } { exact BLI. } { exact LLI. } { exact Hbh. }
    intros mc rc uc Fc Hc. unfold set_mc. flat. set (cc := cset cb (b + 2) rc) in Hc.
    assert (Tcc : tapes_of 0 T0 cc = tapes_of 0 T0 c') by (apply tapes_same; unfold cc, cb, ca; csets; reflexivity).
    assert (Bt : nb * 2 * (r - 1) + nb + nb <= 8 * tS) by (clear - Ht Hr; nia).
    destruct (Lc _ _ (b + 1) Hc ltac:(lia)) as [Lxc Bxc]. destruct (Lc _ _ (b + 4) Hc ltac:(lia)) as [Lkc Bkc]. rewrite Sx in Lxc. rewrite Sk0 in Lkc.
    assert (Hkc : cc (b + 4) = key0) by (unfold cc, cb, ca; csets; exact Hkey0).
    apply runs_seq.
    assert (HX : forall Q' : state -> Prop, (forall iv2 md xd ud q, heap L yn md (cset cc (b + 1) xd) -> iv2 3 = r ->
        (if r =? 1 then k0 <- slice key0 0 sB ;; x <- blit (cc (b + 1)) 0 k0 ;; Ok (x, mkTapes (tapes_of 0 T0 c') p)
         else tapesToParityBits E (cc (b + 1)) nb (mkTapes (tapes_of 0 T0 c') (nb * 2 * (r - 1)))) = Ok (xd, mkTapes (tapes_of 0 T0 c') q) ->
        Q' (mkState iv2 zd yp md yn ud)) ->
      runs U (If (CEq (IV 3) (IC 1)) (MemCpy (P0 6) (P0 9) (IC (stateSizeBytes P)))
          (ISet 0 (IMul (IMul (IC nb) (IC 2)) (ISub (IV 3) (IC 1)));;
           c_tapesToParityBits (P0 6) (IC nb) 0 0))%c (mkState iv1 zd yp mc yn uc) Q').
    { intros Q' HQ'. eapply runs_if; [reflexivity|]. csimpl. rewrite I3. destruct (Nat.eqb_spec r 1) as [Hr1|Hr1].
      - apply (h_memcpy_part n0 m0 U L (P0 6) (P0 9) _ _ cc (b + 1) (reg L (b + 4)) (cc (b + 4))); csimpl.
        { rewrite E6. reflexivity. } { rewrite E9. reflexivity. } { lia. }
        { intros He. destruct (heap_disj n0 m0 L yn mc cc (b + 4) (b + 1) Hc ltac:(lia) ltac:(lia) ltac:(lia)) as [X|[X|X]]; [congruence| |]; rewrite He in X; rewrite ?Sx, ?Sk0 in X; lia. }
        { right. exists (b + 4). split; [lia|auto]. } { exact Bkc. } { rewrite Sx. fold sB. lia. } { rewrite Lkc. fold sB. lia. } { fold sB. lia. } { exact Hc. }
        intros md Hd. fold sB in Hd. rewrite Hkc in Hd. flat. eapply HQ'; [exact Hd|exact I3|].
        rewrite slice0_ok by (rewrite <- Hkc, Lkc; lia). rewrite bind_Ok, blit_ok by (rewrite firstn_length; lia). rewrite bind_Ok. reflexivity.
      - apply runs_seq, runs_iset. csimpl. flat. rewrite I3. set (iv2 := upd iv1 0 _). assert (I20 : iv2 0 = nb * 2 * (r - 1)) by reflexivity. assert (I23 : iv2 3 = r) by exact I3. clearbody iv2.
        apply (h_tapesToParityBits n0 m0 U HU L (P0 6) (IC nb) 0 0 _ cc (b + 1) (tapes_of 0 T0 cc)); csimpl.
        { rewrite E6. reflexivity. } { lia. } { rewrite Sx. lia. } { intros d. rewrite Ep0. apply Hrow. lia. }
        { intros i Hi. rewrite (Row15 _ _ _ Hc Hi), I20. lia. } { exact Hc. }
        intros md ud Hd. rewrite I20, Tcc in Hd. eapply HQ'; [exact Hd|exact I23|].
        apply (parity_bits_model E P); [exact HE|apply (Hrs _ _ Hh)|fold tS; lia|rewrite Lxc; lia]. }
    apply HX. clear HX. intros iv2 md xd ud q Hd I23 Fd. flat.
    apply runs_seq, runs_iset. csimpl. flat. rewrite I23. set (iv3 := upd iv2 0 _). assert (I30 : iv3 0 = nb * 2 * (r - 1) + nb) by reflexivity. clearbody iv3.
    set (cd := cset cc (b + 1) xd) in Hd.
    apply (h_aux_mpc_sbox n0 m0 U HU E P HP3 HE L 0 T0 ps Cn0 S0 HT0 Hps Hps15 _ _ _ _ _ cd (b + 1) (b + 2)); csimpl.
    { rewrite E6. reflexivity. } { rewrite E7. reflexivity. } { lia. } { lia. } { lia. } { lia. } { rewrite Sx. lia. } { rewrite Sy. lia. } { exact Ep0. } { rewrite I30. fold tS. lia. } { exact Hd. }
    intros me ue ce He Ce Fe. rewrite I30 in Fe. flat. split; [reflexivity|]. split; [reflexivity|]. exists ce. eexists. split; [exact He|].
    assert (Td : tapes_of 0 T0 cd = tapes_of 0 T0 c') by (rewrite <- Tcc; apply tapes_same; unfold cd; csets; reflexivity). rewrite Td in Fe.
    assert (X1 : ce b = ra) by (rewrite Ce by lia; unfold cd, cc, cb, ca; csets; reflexivity).
    assert (X2 : ce (b + 1) = xd) by (rewrite Ce by lia; unfold cd; csets; reflexivity).
    assert (X3 : ce (b + 2) = rc) by (rewrite Ce by lia; unfold cd, cc; csets; reflexivity).
    split; [|split; [|split]].
    + rewrite Hf. fold r. replace (R - S k) with (r - 1) by (unfold r; lia). assert (Er : r = S (r - 1)) by lia. rewrite Er at 1. cbn [for_down]. rewrite <- Er.
      unfold fbody at 1. rewrite Fa, bind_Ok.
      assert (Y1 : ca (b + 1) = c' (b + 1)) by (unfold ca; csets; reflexivity). assert (Y2 : ca b = ra) by (unfold ca; csets; reflexivity). rewrite Y1, Y2 in Fb.
      rewrite Fb, bind_Ok. assert (Y3 : cb (b + 2) = c' (b + 2)) by (unfold cb, ca; csets; reflexivity). assert (Y4 : cb (b + 1) = rb) by (unfold cb; csets; reflexivity). rewrite Y3, Y4 in Fc.
      rewrite Fc, bind_Ok. assert (Y5 : cc (b + 1) = rb) by (unfold cc; csets; exact Y4). rewrite Y5 in Fd. cbn [tp_tape]. rewrite Fd, bind_Ok. cbn [tp_tape].
      assert (Y6 : cd (b + 1) = xd) by (unfold cd; csets; reflexivity). assert (Y7 : cd (b + 2) = rc) by (unfold cd, cc; csets; reflexivity). rewrite Y6, Y7 in Fe. rewrite Fe, !bind_Ok.
      rewrite X1, X2, X3. reflexivity.
    + rewrite Ce by lia. unfold cd, cc, cb, ca. csets. exact Hkey.
    + rewrite Ce by lia. unfold cd. csets. exact Hkc.
    + intros Hz. destruct (Hin Hz) as (b1 & _). rewrite Ce by lia. unfold cd, cc, cb, ca. csets. auto.
  - csimpl. rewrite Nat.sub_0_r, Nat.add_0_r, Nat.div_1_r. fold R. intros z (Zp & Zn & c' & p & Hh & Hf & Hkey & Hkey0 & Hin1).
    destruct z as [zi zd zp zm zn zu]. cbn [pv nx mm] in Zp, Zn, Hh. subst zp zn. apply runs_iset. csimpl. flat.
    rewrite Nat.sub_diag in Hf. cbn [for_down] in Hf. rewrite Hf in HQ. rewrite bind_Ok in HQ. cbn [tp_tape] in HQ.
    eapply HQ; [exact Hh|reflexivity|exact Hin1|reflexivity].
Qed.
End A.
