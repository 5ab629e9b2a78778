(** [simulateOnline] on memory with pointers: the call, and the theorem forms. *)

From Coq Require Import List NArith Arith Bool Lia ZifyBool ZifyNat ZifyN.
From Verif Require Import Base Params Env Spec LowMC Picnic3 MiniC CodeLowMC CodeP3 CodeSpec CodeZkbSpec CodeP3Spec BaseFacts ParamFacts LowMCFacts
  ZkbChal P3Tape P3Aux P3Online MiniCFacts CodeRules CodeLowMCProofs CodeHeap CodeZkbProofs CodeZkbBits CodeZkbMpc CodeP3Proofs CodeP3Lin CodeP3AuxThm CodeP3On CodeP3Sbox CodeP3Sim CodeShow.
Import ListNotations.
Local Opaque pack.

Section S.
Variables (U : nat -> nat -> bytes) (HU : locals_ok U) (E : env) (P : paramset) (HP3 : wfP3 P) (HE : env_bytes_ok E) (HC : constants_ok E P).
Variables (st : state) (tl ml : list bytes) (uo : option nat) (mk pt pub : bytes) (qm : nat -> ptr) (qs : ptr).
Hypothesis HM : online_call E P st tl ml uo mk pt pub qm qs.
Let n := nx st.
Let ws := online_writes P qm qs.
Let tS := p3_tapeSize P.
Let aB := andSizeBytes P.
Let nb := stateSizeBits P.
Let R := numRounds P.

Lemma on_len : length ws = 17.
Proof. reflexivity. Qed.
Lemma on_reg i : i < 16 -> reg (lay_of ws) i = qm i /\ sz (lay_of ws) i = aB.
Proof. intros Hi. do 16 (destruct i as [|i]; [split; reflexivity|]). lia. Qed.
Lemma on_reg16 : reg (lay_of ws) 16 = qs /\ sz (lay_of ws) 16 = 2 * nb.
Proof. split; reflexivity. Qed.

Lemma on_rows : rows 16 tS tl.
Proof.
  destruct (oc_tapes _ _ _ _ _ _ _ _ _ _ _ HM) as [A B]. split; [exact A|]. intros i Hi. destruct (B i Hi) as (q & _ & Rq & Lq). split; [exact Lq|]. apply Rq.
Qed.

Lemma on_heap : exists l, heap n (mm st) (lay_of ws) n (mm st) (fun k => if k <? 16 then nth k ml [] else l).
Proof.
  destruct (oc_masks _ _ _ _ _ _ _ _ _ _ _ HM) as (_ & _ & l & [Pl Bl] & Ll). exists l. apply heap_of; [|exact (oc_apart _ _ _ _ _ _ _ _ _ _ _ HM)].
  destruct (oc_msgs _ _ _ _ _ _ _ _ _ _ _ HM) as [_ HMs].
  intros k p s Hk. assert (Hlt : k < 17) by (rewrite <- on_len; apply nth_error_Some; congruence).
  rewrite lay_nth in Hk by exact Hlt. assert (Hk' : (reg (lay_of ws) k, sz (lay_of ws) k) = (p, s)) by congruence. clear Hk.
  destruct (Nat.ltb_spec k 16) as [Hlt16|Hge].
  - destruct (on_reg k Hlt16) as [A B]. rewrite A, B in Hk'. destruct (HMs k Hlt16) as (_ & [Pk Bk] & Lk). injection Hk' as <- <-. split; [exact Pk|]. split; [exact Lk|exact Bk].
  - assert (k = 16) as -> by lia. destruct on_reg16 as [A B]. rewrite A, B in Hk'. injection Hk' as <- <-. split; [exact Pl|]. split; [exact Ll|exact Bl].
Qed.

Lemma runs_simulateOnline (Q : state -> Prop) :
  (forall m' u b ml', simulateOnline E P mk (mkTapes tl 0) (mkMsgs ml 0 uo) pt pub = Ok (b, mkMsgs ml' (nb * R) uo) ->
     (forall i, i < 16 -> pts n m' (qm i) (nth i ml' [])) -> length ml' = 16 -> chg n (mm st) m' ws ->
     Q (mkState (upd (upd (iv st) 0 (2 * nb * R)) 1 (nb * R)) (upd (dv st) 0 (if b then 0 else 4294967295)%N) (pv st) m' n u)) ->
  runs U (c_simulateOnline P 0 (P0 0) 1 2 3 (P0 4) (P0 5) 6 7 8 0 1 2 3) st Q.
Proof.
  intros HQ. pose proof HM as [[Hp0 Hp1] [Hu Huo] Hw (qk & Ek & Rk & Ak & Lk) HT (Esh & Ash & _) [Lml HMs] (qp & Ep & Rp & Ap & Lp) (qb & Eb & Rb & Lb) HA HK HL HCc]. fold ws in Rk, HT, Rp, Rb, HA, HK, HL, HCc.
  pose proof on_rows as HR. destruct on_heap as (l0 & H0). set (c0 := fun k : nat => _) in H0.
  unfold c_simulateOnline. eapply runs_call; [unfold P0; cbn [pargevals pargeval pevals peval]; rewrite Ek, Ep, Eb; cbn [ieval nth_error]; reflexivity|]. cbn [map ieval]. rewrite Hp0, Hp1, Hu, Hw. unfold simulateOnline_body.
  match goal with |- runs U (Loc 9 _ (Loc 10 _ ?s)) _ _ => set (body := s) end.
  change (Loc 9 _ _) with (locs 64 [9; 10] body).
  eapply (h_locs n (mm st) U 64 [9; 10] body HU (lay_of ws) _ c0); [exact H0|]. cbn [length Nat.add iv dv pv mm nx ct]. fold n.
  set (L2 := lpush 64 (lay_of ws) n [9; 10]). set (pv2 := lpv _ _ _). intros m1 c1 H1 Hc1.
  assert (HL2 : cnt L2 = 19) by (unfold L2; rewrite lpush_cnt; reflexivity).
  assert (G : forall i, i < 17 -> reg L2 i = reg (lay_of ws) i /\ sz L2 i = sz (lay_of ws) i) by (intros i Hi; apply lpush_old; exact Hi).
  assert (G' : forall i, i < 2 -> reg L2 (17 + i) = (n + i, 0) /\ sz L2 (17 + i) = 64) by (intros i Hi; apply (lpush_new 64 [9; 10] (lay_of ws) n i Hi)).
  assert (RO : forall q l, reads st ws q l -> ro n (mm st) L2 q l) by (intros q l Hq; apply ro_lpush; [apply le_n|apply ro_of, Hq]).
  destruct (G' 0 ltac:(lia)) as [R17 S17]. destruct (G' 1 ltac:(lia)) as [R18 S18]. cbn [Nat.add] in R17, S17, R18, S18. rewrite Nat.add_0_r in R17.
  destruct (G 16 ltac:(lia)) as [R16 S16].
  assert (Hps : forall i, i < 16 -> exists q, nth_error (pv st 1) i = Some q /\ ro n (mm st) L2 q (nth i tl [])).
  { intros i Hi. destruct (proj2 HT i Hi) as (q & A & B & _). exists q. split; [exact A|]. apply RO, B. }
  assert (MC : msgs_of c1 = ml).
  { apply (nth_ext _ _ [] []); rewrite length_msgs; [auto|]. intros i Hi. rewrite nth_msgs by exact Hi. rewrite Hc1 by (cbn [lay_of cnt]; rewrite on_len; lia).
    unfold c0. rewrite (proj2 (Nat.ltb_lt i 16)) by exact Hi. reflexivity. }
  assert (HMa : msgs_at P L2 (pv st 3)).
  { split; [lia|]. intros i Hi. destruct (G i ltac:(lia)) as [A B]. destruct (on_reg i Hi) as [C D]. rewrite A, B, C, D. split; [reflexivity|]. apply HMs, Hi. }
  unfold body. apply runs_seq.
  apply (runs_rounds n (mm st) U HU E P HP3 HE HC L2 tl (pv st 1) HR Hps uo mk pt qk qp Huo HL2) with (c := c1) (KM := pv st 6) (LM := pv st 7) (CM := pv st 8).
  - rewrite S16. reflexivity.
  - rewrite R16. exact Ash.
  - split; [exact S17|]. rewrite R17. reflexivity.
  - split; [exact S18|]. rewrite R18. reflexivity.
  - split; [apply RO, Rk|]. split; [exact Ak|]. split; [apply Rk|exact Lk].
  - split; [apply RO, Rp|]. split; [exact Ap|]. split; [apply Rp|exact Lp].
  - reflexivity.
  - reflexivity.
  - rewrite R16. exact Esh.
  - exact HMa.
  - reflexivity.
  - reflexivity.
  - reflexivity.
  - reflexivity.
  - rewrite R17. reflexivity.
  - rewrite R18, Nat.add_1_r. reflexivity.
  - intros i Hi. destruct (HK i Hi) as (q & A & B & C). exists q. split; [exact A|]. split; [apply RO, B|exact C].
  - intros i Hi. destruct (HL i Hi) as (q & A & B & C). exists q. split; [exact A|]. split; [apply RO, B|exact C].
  - intros i Hi. destruct (HCc i Hi) as (q & A & B & C). exists q. split; [exact A|]. split; [apply RO, B|exact C].
  - reflexivity.
  - reflexivity.
  - reflexivity.
  - reflexivity.
  - exact H1.
  - intros iv' dv' m' u c' H' I0 I1 HF. rewrite MC in HF. specialize (HF pub). cbn [nx].
    pose proof (sB_W P HP3) as (B1 & B2 & _).
    assert (L18 : length (c' 18) = 64) by (rewrite (heap_len _ _ _ _ _ _ H' 18 ltac:(lia)); exact S18).
    assert (Lb' : stateSizeBytes P <= length (c' 18)) by (rewrite L18; clear - B1 B2; lia).
    rewrite memcmp_ok in HF by (auto). rewrite bind_Ok in HF.
    apply runs_seq. eapply (h_memcmp n (mm st) U L2 0 (P0 10) (P0 5) _ _ c' (reg L2 18) qb (c' 18) pub); cbn [iv dv pv mm nx ct ieval].
    { rewrite R18, Nat.add_1_r. reflexivity. }
    { reflexivity. }
    { right. exists 18. split; [lia|auto]. } { left. apply RO, Rb. } { exact Lb'. } { exact Lb. } { exact H'. }
    intros d u2 Hd. apply runs_ifd. cbn [deval dv]. rewrite upd_eq, Hd.
    set (b := eqb_bytes _ _) in *.
    assert (Fin : forall v, v = (if b then 0 else 4294967295)%N -> forall y, iv y = iv' -> dv y 1 = v -> mm y = m' -> nx y = 2 + n -> pv y = pv2 ->
      exists c'0, heap n (mm st) L2 (S (S n)) (mm y) c'0 /\ nx y = S (S n) /\ forall m'' p', heap n (mm st) (lay_of ws) n m'' c'0 ->
        (forall a, ~ In a [9; 10] -> p' a = pv y a) ->
        Q (mkState (copy_back [(0, 0); (1, 1)] (iv y) (iv st)) (copy_back [(0, 1)] (dv y) (dv st)) (pv st) m'' n (ct y))).
    { intros v Ev y Y1 Y2 Y3 Y4 Y5. exists c'. rewrite Y3, Y4. split; [exact H'|]. split; [reflexivity|]. intros m'' p' H'' _. cbn [copy_back]. rewrite Y1, Y2, I0, I1, Ev.
      apply (HQ m'' (ct y) b (msgs_of c')).
      - exact HF.
      - intros i Hi. rewrite nth_msgs by exact Hi. destruct (on_reg i Hi) as [A _]. rewrite <- A. apply (heap_pts _ _ _ _ _ _ H''). cbn [lay_of cnt]. rewrite on_len. lia.
      - apply length_msgs.
      - pose proof (heap_chg _ _ _ _ _ _ H'') as A. rewrite regions_of in A. exact A. }
    destruct b; apply runs_dset; eapply Fin; reflexivity.
Qed.
End S.

Lemma simulateOnline_code U E P st tl ml uo mk pt pub qm qs :
  locals_ok U -> wfP3 P -> env_bytes_ok E -> constants_ok E P -> online_call E P st tl ml uo mk pt pub qm qs ->
  exists st' t b ml', run U (c_simulateOnline P 0 (P0 0) 1 2 3 (P0 4) (P0 5) 6 7 8 0 1 2 3) st = Some (st', t) /\
    simulateOnline E P mk (mkTapes tl 0) (mkMsgs ml 0 uo) pt pub = Ok (b, mkMsgs ml' (stateSizeBits P * numRounds P) uo) /\
    dv st' 0 = (if b then 0 else 4294967295)%N /\ length ml' = 16 /\ (forall i, i < 16 -> pts (nx st) (mm st') (qm i) (nth i ml' [])) /\
    chg (nx st) (mm st) (mm st') (online_writes P qm qs) /\ nx st' = nx st /\ pv st' = pv st /\
    iv st' = upd (upd (iv st) 0 (2 * stateSizeBits P * numRounds P)) 1 (stateSizeBits P * numRounds P).
Proof.
  intros HU HP HE HC HM.
  pose proof (runs_simulateOnline U HU E P HP HE HC st tl ml uo mk pt pub qm qs HM (fun y => exists b ml',
    simulateOnline E P mk (mkTapes tl 0) (mkMsgs ml 0 uo) pt pub = Ok (b, mkMsgs ml' (stateSizeBits P * numRounds P) uo) /\
    dv y 0 = (if b then 0 else 4294967295)%N /\ length ml' = 16 /\ (forall i, i < 16 -> pts (nx st) (mm y) (qm i) (nth i ml' [])) /\
    chg (nx st) (mm st) (mm y) (online_writes P qm qs) /\ nx y = nx st /\ pv y = pv st /\
    iv y = upd (upd (iv st) 0 (2 * stateSizeBits P * numRounds P)) 1 (stateSizeBits P * numRounds P))) as H.
  unfold runs in H. destruct (run U _ st) as [[y t]|].
  - destruct H as (b & ml' & H1).
    { intros m' u b ml' A B C D. exists b, ml'. cbn [iv dv pv mm nx]. split; [exact A|]. split; [apply upd_eq|]. split; [exact C|]. split; [exact B|]. split; [exact D|]. auto. }
    exists y, t, b, ml'. split; [reflexivity|]. exact H1.
  - exfalso. apply H. intros m' u b ml' A B C D. exists b, ml'. cbn [iv dv pv mm nx]. split; [exact A|]. split; [apply upd_eq|]. split; [exact C|]. split; [exact B|]. split; [exact D|]. auto.
Qed.

Lemma simulateOnline_shows U P x pa pc psh pms ppl ppub K L C a b c d st y t :
  run U (c_simulateOnline P x pa pc psh pms ppl ppub K L C a b c d) st = Some (y, t) -> dv y x = 0%N -> shown t = repeat 0%N (stateSizeBytes P + 1).
Proof.
  unfold c_simulateOnline. intros H. destruct (inv_call _ _ _ _ _ _ _ _ _ _ H) as (ps & z & _ & F & ->). clear H. cbn [dv copy_back]. rewrite upd_eq. intros Hd.
  unfold simulateOnline_body in F. destruct (inv_loc _ _ _ _ _ _ _ F) as (z1 & F1 & ->). clear F. cbn [dv] in Hd. destruct (inv_loc _ _ _ _ _ _ _ F1) as (z2 & F2 & ->). clear F1. cbn [dv] in Hd.
  assert (SN : shows_nothing (simulate_rounds P) = true) by reflexivity. remember (simulate_rounds P) as s1 eqn:E1. remember (c_memcmp 0 (P0 10) (P0 5) (IC (stateSizeBytes P))) as s2 eqn:E2. clear E1.
  cbn [run] in F2. destruct (inv_andthen _ _ _ _ F2) as (y1 & t1 & t2 & A1 & A2 & ->). clear F2. destruct (inv_andthen _ _ _ _ A2) as (y2 & t3 & t4 & A3 & A4 & ->). clear A2.
  destruct (inv_emit _ _ _ _ A4) as (t5 & A5 & ->). clear A4. cbn [deval] in A5. rewrite !shown_app, (shown_nothing U s1 SN _ _ _ A1). cbn [app]. subst s2.
  destruct (N.eqb_spec (dv y2 0) 0) as [E0|E0]; injection A5 as <- <-; cbn [set_dv dv] in Hd; rewrite upd_eq in Hd; [|discriminate].
  rewrite (shown_memcmp U _ _ _ _ _ _ _ A3 E0). cbn [deval shown flat_map app]. rewrite E0, repeat_app. reflexivity.
Qed.

Lemma simulateOnline_constant_time U U' P x y x' t y' t' : locals_ok U -> locals_ok U' -> same_public x y ->
  let c := c_simulateOnline P 0 (P0 0) 1 2 3 (P0 4) (P0 5) 6 7 8 0 1 2 3 in
  run U c x = Some (x', t) -> run U' c y = Some (y', t') ->
  (shown t = shown t' -> t = t') /\ (dv x' 0 = 0%N -> dv y' 0 = 0%N -> t = t').
Proof.
  intros HU HU' H c A B.
  assert (L : forall k j, length (U k j) = length (U' k j)) by (intros k j; rewrite (proj1 (HU k j)), (proj1 (HU' k j)); reflexivity).
  assert (X : shown t = shown t' -> t = t').
  { intros S. apply (run_shown U U' L c x y H _ _ _ _ [] [] A B). rewrite !app_nil_r. exact S. }
  split; [exact X|]. intros Z Z'. apply X. rewrite (simulateOnline_shows _ _ _ _ _ _ _ _ _ _ _ _ _ _ _ _ _ _ _ A Z), (simulateOnline_shows _ _ _ _ _ _ _ _ _ _ _ _ _ _ _ _ _ _ _ B Z'). reflexivity.
Qed.
