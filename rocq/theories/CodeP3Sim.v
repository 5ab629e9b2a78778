(** [simulateOnline] on memory with pointers: the body of the function. *)

From Coq Require Import List NArith Arith Bool Lia ZifyBool ZifyNat ZifyN.
From Verif Require Import Base Params Env Spec LowMC Picnic3 MiniC CodeLowMC CodeP3 CodeSpec BaseFacts ParamFacts LowMCFacts
  ZkbChal P3Tape P3Aux P3Online MiniCFacts CodeRules CodeLowMCProofs CodeHeap CodeZkbProofs CodeZkbBits CodeZkbMpc CodeP3Proofs CodeP3Lin CodeP3On CodeP3Sbox.
Import ListNotations.
Local Opaque pack.

Lemma runs_toi U x e st (Q : state -> Prop) : Q (set_iv st (upd (iv st) x (N.to_nat (deval (iv st) (dv st) e)))) -> runs U (ToI x e) st Q.
Proof. unfold runs. cbn [run]. auto. Qed.

Lemma runs_ifd U e s1 s2 st (Q : state -> Prop) : (if N.eqb (deval (iv st) (dv st) e) 0 then runs U s2 st Q else runs U s1 st Q) -> runs U (IfD e s1 s2) st Q.
Proof.
  unfold runs. cbn [run]. destruct (N.eqb _ 0); [destruct (run U s2 st) as [[z t]|]|destruct (run U s1 st) as [[z t]|]]; cbn [emit]; auto.
Qed.

Lemma firstn_snoc (l : bytes) : forall k, k < length l -> firstn (S k) l = firstn k l ++ [nth k l 0%N].
Proof.
  induction l as [|a l IH]; intros [|k] H; cbn [length] in H; try lia; [reflexivity|]. cbn [nth].
  change (firstn (S (S k)) (a :: l)) with (a :: firstn (S k) l). rewrite IH by lia. reflexivity.
Qed.

Lemma word_1 (l : bytes) k : k < length l -> word_of (firstn 1 (skipn k l)) = nth k l 0%N.
Proof.
  revert l; induction k as [|k IH]; intros [|a l] H; cbn [length] in H; try lia.
  - cbn [skipn firstn word_of nth]. lia.
  - cbn [skipn nth]. apply IH. lia.
Qed.

Section C.
Variables (n0 : nat) (m0 : memory) (U : nat -> nat -> bytes) (L : layout).
Notation heap := (heap n0 m0).
Notation at_ := (at_ n0 m0).
Lemma h_memcmp x pa pb e y c qa qb a b (Q : state -> Prop) : let n := ieval (iv y) e in
  peval (iv y) (pv y) pa = Some qa -> peval (iv y) (pv y) pb = Some qb -> at_ L c qa a -> at_ L c qb b -> n <= length a -> n <= length b ->
  heap L (nx y) (mm y) c ->
  (forall d u, N.eqb d 0 = eqb_bytes (firstn n a) (firstn n b) -> Q (mkState (iv y) (upd (dv y) x d) (pv y) (mm y) (nx y) u)) ->
  runs U (c_memcmp x pa pb e) y Q.
Proof.
  cbv zeta. set (n := ieval (iv y) e). intros Ea Eb A B La Lb H HQ. unfold c_memcmp.
  eapply runs_call; [cbn [pargevals pargeval pevals]; rewrite Ea, Eb; reflexivity|]. cbn [map ieval]. fold n. unfold memcmp_body.
  set (pv1 := args [] [[qa]; [qb]]).
  apply runs_seq, runs_dset. csimpl.
  apply runs_forn with (I := fun k z => pv z = pv1 /\ nx z = nx y /\ mm z = mm y /\ (dv z 2 = 0%N <-> firstn k a = firstn k b)).
  - flat. split; [reflexivity|]. split; [reflexivity|]. split; [reflexivity|]. cbn. tauto.
  - csimpl. intros k z Hk (Z1 & Z2 & Z3 & Hd). destruct z as [zi zd zp zm zn zc]. cbn [iv dv pv mm nx ct] in *. subst zp zn zm.
    apply runs_seq. apply (h_ldw n0 m0 U L 1 0 _ qa k a _ c); csimpl.
    { unfold pv1. csimpl. destruct qa as [q1 q2]. cbn [nth_error fst snd]. rewrite ?Nat.mul_1_l, ?Nat.add_0_r. reflexivity. } { exact A. } { lia. } { lia. } { apply Nat.mod_1_r. } { exact H. }
    flat. apply runs_seq. apply (h_ldw n0 m0 U L 1 1 _ qb k b _ c); csimpl.
    { unfold pv1. csimpl. destruct qb as [q1 q2]. cbn [nth_error fst snd]. rewrite ?Nat.mul_1_l, ?Nat.add_0_r. reflexivity. } { exact B. } { lia. } { lia. } { apply Nat.mod_1_r. } { exact H. }
    flat. apply runs_seq, runs_toi. flat. apply runs_dset. unfold dor, dxor. csimpl. flat. cbn [deval dop_eval]. csimpl. rewrite !word_1 by lia.
    split; [reflexivity|]. split; [reflexivity|]. split; [reflexivity|].
    rewrite N.lor_eq_0_iff, N.lxor_eq_0_iff, Hd, !firstn_snoc by lia. split.
    + intros [-> ->]. reflexivity.
    + intros X. apply app_inj_tail in X. exact X.
  - csimpl. intros z (Z1 & Z2 & Z3 & Hd). rewrite Z2, Z3. apply HQ. apply eq_true_iff_eq. rewrite N.eqb_eq, eqb_bytes_eq. exact Hd.
Qed.
End C.

Section A.
Variables (n0 : nat) (m0 : memory) (U : nat -> nat -> bytes) (HU : locals_ok U).
Notation heap := (heap n0 m0).
Notation ro := (ro n0 m0).
Notation at_ := (at_ n0 m0).
Variables (E : env) (P : paramset).
Hypothesis HP3 : wfP3 P.
Hypothesis HE : env_bytes_ok E.
Hypothesis HC : constants_ok E P.
Let HP := w3_wfP P HP3.
Let tS := p3_tapeSize P.
Let aB := andSizeBytes P.
Let W := stateSizeWords P.
Let sB := stateSizeBytes P.
Let nb := stateSizeBits P.
Let R := numRounds P.
Variables (L : layout) (tl : list bytes) (ps : list ptr).
Hypothesis HT : rows 16 tS tl.
Hypothesis Hps : forall i, i < 16 -> exists q, nth_error ps i = Some q /\ ro L q (nth i tl []).

Variables (uo : option nat) (mk pt : bytes) (qk qp : ptr).
Hypothesis Huo : forall u, uo = Some u -> u < 16.
(** The messages, the shares, roundKey, state. *)
Hypothesis HL : cnt L = 19.
Hypothesis S16 : sz L 16 = 2 * nb.
Hypothesis A16 : snd (reg L 16) mod 2 = 0.
Hypothesis S17 : sz L 17 = 64 /\ aligned (reg L 17).
Hypothesis S18 : sz L 18 = 64 /\ aligned (reg L 18).
Hypothesis Hmk : ro L qk mk /\ aligned qk /\ bytes_ok mk /\ nb <= 8 * length mk.
Hypothesis Hpt : ro L qp pt /\ aligned qp /\ bytes_ok pt /\ 4 * W <= length pt.

Lemma runs_rounds y c KM LM CM (Q : state -> Prop) :
  pv y 0 = [qk] -> pv y 1 = ps -> pv y 2 = [reg L 16] -> msgs_at P L (pv y 3) -> pv y 4 = [qp] -> pv y 6 = KM -> pv y 7 = LM -> pv y 8 = CM ->
  pv y 9 = [reg L 17] -> pv y 10 = [reg L 18] ->
  (forall i, i < R + 1 -> exists q, nth_error KM i = Some q /\ ro L q (KMatrix E P i) /\ aligned q) ->
  (forall i, i < R -> exists q, nth_error LM i = Some q /\ ro L q (LMatrix E P i) /\ aligned q) ->
  (forall i, i < R -> exists q, nth_error CM i = Some q /\ ro L q (RConstant E P i) /\ aligned q) ->
  iv y 0 = 0 -> iv y 1 = 0 -> iv y 2 = match uo with Some u => S u | None => 0 end -> iv y 4 = nb -> heap L (nx y) (mm y) c ->
  (forall iv' dv' m' u c', heap L (nx y) m' c' -> iv' 0 = 2 * nb * R -> iv' 1 = nb * R ->
     (forall pub, simulateOnline E P mk (mkTapes tl 0) (mkMsgs (msgs_of c) 0 uo) pt pub =
        (ok <- memcmp_eq (c' 18) pub sB ;; Ok (ok, mkMsgs (msgs_of c') (nb * R) uo))) ->
     Q (mkState iv' dv' (pv y) m' (nx y) u)) ->
  runs U (simulate_rounds P) y Q.
Proof.
  intros Ep0 Ep1 Ep2 HM Ep4 Ep6 Ep7 Ep8 Ep9 Ep10 HK HLM HCM I0 I1 I2 I4 H HQ. unfold simulate_rounds. fold W nb R.
  pose proof (wf_W0 P HP) as W0. pose proof (wf_W2 P HP) as W2. pose proof (wf_sB P HP) as WsB. pose proof (wf_n P HP) as Wn. pose proof (wf_W1 P HP) as W1. pose proof (wf_W3 P HP) as W3.
  pose proof (numBytes_spec nb) as NB. unfold nb in NB. rewrite <- WsB in NB. fold sB in NB. fold W in W0, W1, W2, W3. fold nb in Wn, W1, W2, NB.
  pose proof (w3_m P HP3) as Wm. fold nb in Wm.
  assert (Ht : 2 * nb * R <= 8 * tS) by (apply (tS_bits P HP3)). assert (Ha : nb * R <= 8 * aB) by (apply (aB_nR P HP3)).
  destruct HC as (CK & CL & CR). fold R nb W in CK, CL, CR. destruct S17 as [S17s A17]. destruct S18 as [S18s A18].
  destruct Hmk as (Rk & Ak & Bk & Lk). destruct Hpt as (Rp & Ap & Bp & Lp).
  destruct y as [yi yd yp ym yn yu]. cbn [iv dv pv mm nx ct] in *.
  assert (Lc : forall m cc k, heap L yn m cc -> k < 19 -> length (cc k) = sz L k /\ bytes_ok (cc k)).
  { intros m cc k Hh Hk. split; [apply (heap_len _ _ _ _ _ _ Hh)|apply (heap_ok _ _ _ _ _ _ Hh)]; rewrite HL; exact Hk. }
  assert (CN : 16 < cnt L /\ 17 < cnt L /\ 18 < cnt L) by (rewrite HL; clear; lia). destruct CN as (C16 & C17 & C18).
  assert (N17 : 17 < 19) by (clear; lia). assert (N18 : 18 < 19) by (clear; lia). assert (W64 : 4 * W <= 64) by (clear - W3; lia).
  (* memset *)
  apply runs_seq. apply (h_memset0 n0 m0 U L (P0 9) (IC 64) _ c 17); csimpl; [rewrite Ep9; reflexivity|exact C17|rewrite S17s; reflexivity|rewrite S17s; clear; lia|exact H|]. intros m1 H1. rewrite S17s in H1. set (c1 := cset c 17 _) in H1. flat.
  apply runs_seq. apply (h_memset0 n0 m0 U L (P0 10) (IC 64) _ c1 18); csimpl; [rewrite Ep10; reflexivity|exact C18|rewrite S18s; reflexivity|rewrite S18s; clear; lia|exact H1|]. intros m2 H2. rewrite S18s in H2. set (c2 := cset c1 18 _) in H2. flat.
  (* round key *)
  destruct (HK 0 ltac:(lia)) as (qk0 & Ek0 & Rk0 & Ak0). destruct (CK 0 ltac:(lia)) as [LK0 BK0].
  apply runs_seq. apply (h_matrix_mul n0 m0 U HU L E P HP HE (P0 9) (P0 0) (PV 6 (IC 0)) _ c2 17 qk qk0 mk (KMatrix E P 0)); csimpl.
  { rewrite Ep9. reflexivity. } { rewrite Ep0. reflexivity. } { rewrite Ep6. exact Ek0. } { exact C17. } { rewrite S17s. exact W64. }
  { left. exact Rk. } { exact Bk. } { exact Lk. } { exact Ak. } { exact Rk0. } { exact Ak0. } { exact BK0. } { exact LK0. } { exact H2. }
  intros m3 rk0 u3 F0 H3. unfold set_mc. flat. assert (X0 : c2 17 = zeros 64) by (unfold c2, c1; csets; reflexivity). rewrite X0 in F0. set (c3 := cset c2 17 rk0) in H3.
  destruct (Lc _ _ 17 H3 N17) as [Lr Br].
  (* state *)
  apply runs_seq. apply (h_xor_array n0 m0 U L (P0 10) (P0 9) (P0 4) (IC W) _ c3 18 (reg L 17) qp (c3 17) pt); csimpl.
  { rewrite Ep10. reflexivity. } { rewrite Ep9. reflexivity. } { rewrite Ep4. reflexivity. } { exact C18. } { rewrite S18s. exact W64. }
  { right. exists 17. split; [exact C17|auto]. } { left. exact Rp. } { rewrite Lr, S17s. exact W64. } { exact Lp. } { exact Br. } { exact Bp. } { exact A18. } { exact A17. } { exact Ap. } { exact H3. }
  intros m4 st0 F1 H4. flat. assert (X1 : c3 18 = zeros 64) by (unfold c3, c2; csets; reflexivity). assert (X2 : c3 17 = rk0) by (unfold c3; csets; reflexivity). rewrite X1, X2 in F1.
  set (c4 := cset c3 18 st0) in H4.
  assert (M4 : msgs_of c4 = msgs_of c) by (apply msgs_ext; intros i Hi; clear - Hi; unfold c4, c3, c2, c1; csets; reflexivity).
  assert (X3 : c4 18 = st0) by (unfold c4; csets; reflexivity). assert (X4 : c4 17 = rk0) by (unfold c4, c3; csets; reflexivity).
  pose proof (eq_refl (simulateOnline E P mk (mkTapes tl 0) (mkMsgs (msgs_of c) 0 uo) pt [])) as SO. unfold simulateOnline in SO at 2. fold nb W sB R in SO. change LOWMC_MAX_STATE_BYTES with 64 in SO. cbv zeta in SO.
  rewrite F0, bind_Ok, F1, bind_Ok in SO.
  match type of SO with context [for_loop R 1 ?f _] => set (fbody := f) in SO end.
  match type of SO with context [for_loop R 1 fbody ?a] => set (s0 := a) in SO end. clear SO.
  apply runs_for with (I := fun k z => pv z = yp /\ nx z = yn /\ iv z 0 = 2 * nb * k /\ iv z 1 = nb * k /\ iv z 2 = yi 2 /\ iv z 4 = nb /\
    exists c', heap L yn (mm z) c' /\ for_loop k 1 fbody s0 = Ok (c' 18, c' 17, mkTapes tl (2 * nb * k), mkMsgs (msgs_of c') (nb * k) uo)).
  - cbn [pv nx mm iv]. split; [reflexivity|]. split; [reflexivity|]. split; [lia|]. split; [lia|]. split; [reflexivity|]. split; [exact I4|]. exists c4. split; [exact H4|].
    cbn [for_loop]. unfold s0. rewrite M4, X3, X4, !Nat.mul_0_r. reflexivity.
  - csimpl. replace ((R + 1 - 1 + (1 - 1)) / 1) with R by (rewrite Nat.div_1_r; clear; lia). intros k z Hk (Zp & Zn & Z0 & Z1 & Z2 & Z4 & c' & Hh & Hf).
    destruct z as [zi zd zp zm zn zu]. cbn [pv nx mm iv dv] in Zp, Zn, Hh, Z0, Z1, Z2, Z4 |- *. subst zp zn. rewrite Nat.mul_1_r.
    set (r := 1 + k). assert (Hr1 : r - 1 = k) by (clear; unfold r; lia). assert (Hr : r < R + 1) by (clear - Hk; unfold r; lia). assert (Hr' : r <= R) by (clear - Hk; unfold r; lia).
    assert (Bt : 2 * nb * k + nb + nb <= 8 * tS) by (clear - Ht Hk; nia). assert (Bm : nb * k + nb <= 8 * aB) by (clear - Ha Hk; nia).
    set (i1 := upd zi 3 r). assert (J : i1 0 = 2 * nb * k /\ i1 1 = nb * k /\ i1 2 = yi 2 /\ i1 4 = nb /\ i1 3 = r) by (unfold i1; csimpl; auto). destruct J as (J0 & J1 & J2 & J4 & J3). clearbody i1.
    (* tapesToWords *)
    apply runs_seq. eapply (h_tapesToWords n0 m0 U HU E P HE L tl ps HT Hps (P0 2) (IV 4) 1 0 _ c' 16); csimpl.
    { rewrite Ep2. reflexivity. } { exact C16. } { rewrite J4. exact S16. } { exact A16. } { exact Ep1. } { rewrite J0, J4. fold tS. clear - Bt; lia. } { exact Hh. }
    rewrite J0, J4. intros ma ua ca ws Hca Ca Fa Lws Hws.
    set (i2 := upd i1 0 _). assert (G : i2 0 = 2 * nb * k + nb /\ i2 1 = nb * k /\ i2 2 = yi 2 /\ i2 4 = nb /\ i2 3 = r) by (unfold i2; csimpl; auto). destruct G as (G0 & G1 & G2 & G4 & G3). clearbody i2.
    (* S-boxes *)
    apply runs_seq. eapply (h_p3_mpc_sbox n0 m0 U HU E P HP3 HE L tl ps HT Hps uo (P0 10) (P0 2) 1 3 0 1 2 _ ca 18 16 ws); csimpl; rewrite ?Wm.
    { rewrite Ep10. reflexivity. } { rewrite Ep2. reflexivity. } { exact C18. } { exact C16. } { clear; lia. } { clear; lia. } { discriminate. } { rewrite S18s. clear - Wn W2 W3; lia. } { rewrite S16. apply le_n. } { exact A16. }
    { exact Ep1. } { exact HM. } { rewrite Lws. apply le_n. } { exact Hws. } { exact Huo. } { rewrite G2. exact I2. } { rewrite G0. fold tS. exact Bt. } { rewrite G1. exact Bm. } { exact Hca. }
    rewrite G0, G1. intros mb ub cb Hb Cb Fb.
    set (i3 := upd (upd i2 0 _) 1 _). assert (K : i3 0 = 2 * nb * k + nb + nb /\ i3 1 = nb * k + nb /\ i3 2 = yi 2 /\ i3 4 = nb /\ i3 3 = r) by (unfold i3; csimpl; auto). destruct K as (K0 & K1 & K2 & K4 & K3). clearbody i3.
    destruct (Lc _ _ 18 Hb N18) as [L18 B18]. destruct (HLM k Hk) as (ql & El & Rl & Al). destruct (CL k Hk) as [LL BL].
    (* linear layer *)
    apply runs_seq. apply (h_matrix_mul n0 m0 U HU L E P HP HE (P0 10) (P0 10) _ _ cb 18 (reg L 18) ql (cb 18) (LMatrix E P k)); csimpl.
    { rewrite Ep10. reflexivity. } { rewrite Ep10. reflexivity. } { rewrite Ep7, K3, Hr1. exact El. } { exact C18. } { rewrite S18s. exact W64. }
    { right. exists 18. split; [exact C18|auto]. } { exact B18. } { rewrite L18, S18s. fold nb. clear - Wn W2 W3; lia. } { exact A18. } { exact Rl. } { exact Al. } { exact BL. } { exact LL. } { exact Hb. }
    intros mc sc uc Fc Hc. unfold set_mc. flat. set (cc := cset cb 18 sc) in Hc. destruct (Lc _ _ 18 Hc N18) as [L18c B18c].
    (* round constant *)
    destruct (HCM k Hk) as (qc & Ec & Rc & Ac). destruct (CR k Hk) as (LC & BC & _).
    apply runs_seq. apply (h_xor_array n0 m0 U L (P0 10) (P0 10) _ (IC W) _ cc 18 (reg L 18) qc (cc 18) (RConstant E P k)); csimpl.
    { rewrite Ep10. reflexivity. } { rewrite Ep10. reflexivity. } { rewrite Ep8, K3, Hr1. exact Ec. } { exact C18. } { rewrite S18s. exact W64. }
    { right. exists 18. split; [exact C18|auto]. } { left. exact Rc. } { rewrite L18c, S18s. exact W64. } { rewrite LC. apply le_n. } { exact B18c. } { exact BC. } { exact A18. } { exact A18. } { exact Ac. } { exact Hc. }
    intros md sd Fd Hd. flat. set (cd := cset cc 18 sd) in Hd.
    (* round key *)
    destruct (HK r Hr) as (qkr & Ekr & Rkr & Akr). destruct (CK r Hr') as [LKr BKr].
    apply runs_seq. apply (h_matrix_mul n0 m0 U HU L E P HP HE (P0 9) (P0 0) _ _ cd 17 qk qkr mk (KMatrix E P r)); csimpl.
    { rewrite Ep9. reflexivity. } { rewrite Ep0. reflexivity. } { rewrite Ep6, K3. exact Ekr. } { exact C17. } { rewrite S17s. exact W64. }
    { left. exact Rk. } { exact Bk. } { exact Lk. } { exact Ak. } { exact Rkr. } { exact Akr. } { exact BKr. } { exact LKr. } { exact Hd. }
    intros me rke ue Fe He. unfold set_mc. flat. set (ce := cset cd 17 rke) in He.
    destruct (Lc _ _ 17 He N17) as [L17e B17e]. destruct (Lc _ _ 18 He N18) as [L18e B18e].
    apply (h_xor_array n0 m0 U L (P0 10) (P0 9) (P0 10) (IC W) _ ce 18 (reg L 17) (reg L 18) (ce 17) (ce 18)); csimpl.
    { rewrite Ep10. reflexivity. } { rewrite Ep9. reflexivity. } { rewrite Ep10. reflexivity. } { exact C18. } { rewrite S18s. exact W64. }
    { right. exists 17. split; [exact C17|auto]. } { right. exists 18. split; [exact C18|auto]. } { rewrite L17e, S17s. exact W64. } { rewrite L18e, S18s. exact W64. } { exact B17e. } { exact B18e. } { exact A18. } { exact A17. } { exact A18. } { exact He. }
    intros mf sf Ff Hff. flat. set (cf := cset ce 18 sf) in Hff.
    assert (T1 : 2 * nb * k + nb + nb = 2 * nb * S k) by (clear; lia). assert (T2 : nb * k + nb = nb * S k) by (clear; lia).
    split; [reflexivity|]. split; [reflexivity|]. split; [rewrite K0; exact T1|]. split; [rewrite K1; exact T2|]. split; [exact K2|]. split; [exact K4|].
    exists cf. split; [exact Hff|].
    rewrite for_loop_snoc, Hf, bind_Ok. unfold fbody at 1. fold r. rewrite Fa, bind_Ok.
    assert (Y0 : ca 18 = c' 18) by (apply Ca; discriminate). assert (Y1 : msgs_of ca = msgs_of c') by (apply msgs_ext; intros i Hi; apply Ca; clear - Hi; lia). rewrite Y0, Y1 in Fb.
    rewrite Fb, bind_Ok, Hr1, Fc, bind_Ok.
    assert (Y2 : cc 18 = sc) by (unfold cc; csets; reflexivity). rewrite Y2 in Fd. rewrite Fd, bind_Ok.
    assert (Y3 : cd 17 = c' 17) by (clear - Cb Ca; unfold cd, cc; csets; rewrite Cb, Ca by (clear; lia); reflexivity). rewrite Y3 in Fe. rewrite Fe, bind_Ok.
    assert (Y4 : ce 18 = sd) by (clear; unfold ce, cd; csets; reflexivity). assert (Y5 : ce 17 = rke) by (unfold ce; csets; reflexivity). rewrite Y4, Y5 in Ff. rewrite Ff, bind_Ok.
    assert (Y6 : cf 18 = sf) by (unfold cf; csets; reflexivity). assert (Y7 : cf 17 = rke) by (clear; unfold cf, ce; csets; reflexivity). rewrite Y6, Y7.
    assert (Y8 : msgs_of cf = msgs_of cb) by (apply msgs_ext; intros i Hi; clear - Hi; unfold cf, ce, cd, cc; csets; reflexivity). rewrite Y8, T1, T2. reflexivity.
  - csimpl. replace ((R + 1 - 1 + (1 - 1)) / 1) with R by (rewrite Nat.div_1_r; clear; lia). intros z (Zp & Zn & Z0 & Z1 & Z2 & Z4 & c' & Hh & Hf). destruct z as [zi zd zp zm zn zu]. cbn [pv nx mm iv dv] in *. subst zp zn.
    apply (HQ _ _ _ _ c' Hh Z0 Z1). intros pub. unfold simulateOnline. fold nb W sB R. change LOWMC_MAX_STATE_BYTES with 64. cbv zeta. rewrite F0, bind_Ok, F1, bind_Ok.
    fold fbody. fold s0. rewrite Hf, bind_Ok. reflexivity.
Qed.
End A.
