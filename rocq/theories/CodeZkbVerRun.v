(** The ZKB++ computation of the verifier on memory with pointers. *)

From Coq Require Import List NArith Arith Bool Lia ZifyBool ZifyNat ZifyN.
From Verif Require Import Base Params Env Spec LowMC Picnic1 MiniC CodeLowMC CodeZkb CodeSpec CodeZkbSpec CodeVerifySpec BaseFacts ParamFacts LowMCFacts
  MiniCFacts CodeRules CodeLowMCProofs CodeHeap CodeZkbProofs CodeZkbBits CodeZkbMpc CodeZkbRun CodeZkbVer CodeZkbVerSub.
Import ListNotations.

Lemma some_list2 (b x y x' y' : nat) : x = x' -> y = y' -> Some [(b, x); (b, y)] = Some [(b, x'); (b, y')].
Proof. intros -> ->. reflexivity. Qed.
Lemma for2_nth q j : j < 2 -> nth_error (for2 q) j = Some (q j).
Proof. intros H. destruct (lt2_cases j H) as [->| ->]; reflexivity. Qed.
Lemma duoM_Ok {A} (f : nat -> res A) (g : nat -> A) : (forall i, i < 2 -> f i = Ok (g i)) -> duoM f = Ok (g 0, g 1).
Proof. intros H. unfold duoM. rewrite (H 0), (H 1) by lia. reflexivity. Qed.

Section S.
Variables (U : nat -> nat -> bytes) (HU : locals_ok U) (E : env) (P : paramset) (HP : wfP P) (HE : env_bytes_ok E) (HC : constants_ok E P).
Variables (st : state) (T : nat -> bytes) (V : nat -> view) (pt : bytes) (ch : nat) (qs qc : ptr) (qo : nat -> ptr).
Hypothesis HM : ver_call E P st T V pt ch qs qc qo.
Let W := stateSizeWords P.
Let sB := stateSizeBytes P.
Let n := nx st.
Let ws := ver_writes P (V 0) qs qc qo.

(** Communicated bits 0, state 1-2, roundKey 3-4, output shares 5-6. *)
Definition ver_off (i : nat) : nat := (if i <? 3 then i + 1 else i - 3) * (4 * W).
Definition ver_reg (i : nat) : ptr :=
  if i <? 1 then qc else if i <? 5 then (fst qs, snd qs + ver_off i) else qo (i - 5).
Definition ver_sz (i : nat) : nat :=
  if i <? 1 then length (v_communicatedBits (V 0)) else if i <? 5 then 4 * W else sB.
Definition ver_lay : layout := mkLayout 7 ver_reg ver_sz.
Definition ver_c0 (i : nat) : bytes :=
  if i <? 1 then v_communicatedBits (V 0) else if i <? 5 then zeros (4 * W) else v_outputShare (V (i - 5)).

Lemma ver_off_le i : 1 <= i < 5 -> ver_off i + 4 * W <= 16 * W.
Proof. intros H. unfold ver_off. destruct (Nat.ltb_spec i 3); nia. Qed.

(** Every region is part of one that may be written. *)
Lemma ver_part i : i < 7 -> exists x p k o, nth_error ws x = Some (p, k) /\ ver_reg i = (fst p, snd p + o) /\ o + ver_sz i <= k /\
  (x = 0 -> 1 <= i < 5 /\ o = ver_off i) /\ (0 < x -> o = 0 /\ i = if x <? 2 then 0 else x + 3).
Proof.
  intros Hi. unfold ver_reg, ver_sz, ws, ver_writes. fold W sB. destruct (Nat.ltb_spec i 1).
  - exists 1, qc, (length (v_communicatedBits (V 0))), 0. split; [reflexivity|].
    split; [rewrite Nat.add_0_r; apply surjective_pairing|]. split; [lia|]. split; [lia|]. intros _. cbn. lia.
  - destruct (Nat.ltb_spec i 5).
    + exists 0, qs, (16 * W), (ver_off i). split; [reflexivity|]. split; [reflexivity|]. split; [apply ver_off_le; lia|]. split; [auto|lia].
    + exists (i - 3), (qo (i - 5)), sB, 0. split.
      { assert (i = 5 \/ i = 6) as [->| ->] by lia; reflexivity. }
      split; [rewrite Nat.add_0_r; apply surjective_pairing|]. split; [lia|]. split; [lia|]. intros _. split; [reflexivity|]. rewrite (proj2 (Nat.ltb_ge (i - 3) 2)) by lia. lia.
Qed.

Lemma ver_outside i q k : i < 7 -> outside ws q k -> disj (ver_reg i) (ver_sz i) q k.
Proof.
  intros Hi Ho. destruct (ver_part i Hi) as (x & p & l & o & Hx & -> & Hl & _). apply disj_sub with (k := l); [|exact Hl].
  apply Ho. exact (nth_error_In _ _ Hx).
Qed.

Lemma ver_apart i j : i < 7 -> j < 7 -> i <> j -> disj (ver_reg i) (ver_sz i) (ver_reg j) (ver_sz j).
Proof.
  intros Hi Hj Hne. destruct (ver_part i Hi) as (x & p & l & o & Hx & E1 & Hl & X0 & X1), (ver_part j Hj) as (x' & p' & l' & o' & Hx' & E2 & Hl' & Y0 & Y1).
  destruct (Nat.eq_dec x x') as [<-|Hxx].
  - assert (x = 0). { destruct x; [reflexivity|]. destruct (X1 ltac:(lia)) as [_ A], (Y1 ltac:(lia)) as [_ B]. lia. }
    subst x. destruct (X0 eq_refl) as [A ->], (Y0 eq_refl) as [B ->]. rewrite E1, E2. rewrite Hx in Hx'. injection Hx' as <- <-.
    assert (S1 : forall k, 1 <= k < 5 -> ver_sz k = 4 * W) by (intros k Hk; unfold ver_sz; rewrite (proj2 (Nat.ltb_ge k 1)), (proj2 (Nat.ltb_lt k 5)) by lia; reflexivity).
    rewrite !S1 by lia. right. cbn [fst snd]. unfold ver_off. destruct (Nat.ltb_spec i 3), (Nat.ltb_spec j 3); nia.
  - rewrite E1, E2. apply disj_sub with (k := l); [|exact Hl]. apply disj_sub2 with (l := l'); [|exact Hl'].
    exact (vc_apart _ _ _ _ _ _ _ _ _ _ HM x x' p l p' l' Hx Hx' Hxx).
Qed.

(** Memory after [memset]. *)
Definition ver_m1 : memory := wrmem (mm st) qs (repeat 0%N (16 * W)).

Lemma ver_memset : pts n ver_m1 qs (zeros (16 * W)) /\ chg n (mm st) ver_m1 [(qs, 16 * W)] /\ valid (mm st) (16 * W) 1 qs = true.
Proof.
  destruct (vc_slab _ _ _ _ _ _ _ _ _ _ HM) as (_ & _ & l & Pl & Ll). fold W in Ll. pose proof (wf_W0 P HP) as W0. fold W in W0.
  destruct (wrmem_pts n (mm st) qs (repeat 0%N (16 * W))) as [A B].
  - apply Pl.
  - rewrite repeat_length, <- Ll. apply (pts_bound n). exact Pl. intros ->. cbn in Ll. lia.
  - rewrite repeat_length in B. split; [exact A|]. split; [exact B|]. apply (pts_valid n _ _ l); [exact Pl|lia|lia|apply Nat.mod_1_r].
Qed.

Lemma ver_ro q l : reads st ws q l -> ro n ver_m1 ver_lay q l.
Proof.
  intros (Hq & _ & Ho). destruct ver_memset as (_ & C & _). split.
  - apply (pts_chg1 _ _ _ _ _ _ _ C Hq). apply Ho. left. reflexivity.
  - intros k Hk. apply ver_outside; auto.
Qed.

Lemma ver_heap0 : heap n ver_m1 ver_lay n ver_m1 ver_c0.
Proof.
  destruct ver_memset as (Pz & C & _).
  destruct (vc_comm _ _ _ _ _ _ _ _ _ _ HM) as (q2 & _ & Hcm & _). destruct (vc_out _ _ _ _ _ _ _ _ _ _ HM) as [_ Hout].
  pose proof (vc_apart _ _ _ _ _ _ _ _ _ _ HM) as HA. fold ws in HA.
  assert (Sx : forall x p k, 0 < x -> nth_error ws x = Some (p, k) -> disj qs (16 * W) p k).
  { intros x p k Hx Hn. apply (HA 0 x qs (16 * W) p k eq_refl Hn). lia. }
  assert (Pi : forall k, k < 7 -> pts n ver_m1 (ver_reg k) (ver_c0 k) /\ length (ver_c0 k) = ver_sz k /\ bytes_ok (ver_c0 k)).
  { intros k Hk. unfold ver_c0, ver_sz, ver_reg. destruct (Nat.ltb_spec k 1) as [H3|H3].
    - destruct Hcm as [A B]. split; [|auto]. apply (pts_chg1 _ _ _ _ _ _ _ C A). apply (Sx 1); [lia|reflexivity].
    - destruct (Nat.ltb_spec k 5) as [H9|H9].
      + split; [|split; [apply length_zeros|apply bytes_ok_zeros]]. pose proof (ver_off_le k ltac:(lia)) as Ho.
        pose proof (pts_sub _ _ _ _ (ver_off k) (4 * W) Pz ltac:(rewrite length_zeros; exact Ho)) as A. rewrite firstn_skipn_zeros in A by exact Ho. exact A.
      + assert (Hj : k - 5 < 2) by lia. destruct (Hout (k - 5) Hj) as [[A B] Lo]. fold sB in Lo. split; [|split; [exact Lo|exact B]].
        apply (pts_chg1 _ _ _ _ _ _ _ C A). rewrite Lo. apply (Sx (2 + (k - 5))); [lia|].
        destruct (lt2_cases _ Hj) as [->| ->]; reflexivity. }
  split.
  - split; [lia| |].
    + intros k Hk. apply Pi, Hk.
    + intros i j Hi Hj. apply ver_apart; auto.
  - intros k Hk. apply Pi, Hk.
  - intros k Hk. apply Pi, Hk.
  - intros k Hk. apply Pi, Hk.
  - apply chg_refl.
Qed.

Lemma ver_chg m' : chg n ver_m1 m' (regions ver_lay) -> chg n (mm st) m' ws.
Proof.
  intros H. destruct ver_memset as (_ & C & _). eapply chg_trans with (r2 := ws); [exact C| |intros x [<-|[]]; left; reflexivity|auto].
  apply (chg_mono n ver_m1 m' _ _ H). intros p k Hp _. apply in_regions in Hp. destruct Hp as (i & Hi & -> & ->).
  destruct (ver_part i Hi) as (x & p & l & o & Hx & E1 & Hl & _). exists p, l. split; [exact (nth_error_In _ _ Hx)|].
  change (reg ver_lay i) with (ver_reg i). change (sz ver_lay i) with (ver_sz i). rewrite E1. cbn [fst snd]. lia.
Qed.

Lemma vreg_out i : i < 2 -> ver_reg (5 + i) = qo i.
Proof. intros H. destruct (lt2_cases i H) as [->| ->]; reflexivity. Qed.
Lemma vsz_words k : 1 <= k < 5 -> sz ver_lay k = 4 * W.
Proof. intros H. cbn [ver_lay sz]. unfold ver_sz. rewrite (proj2 (Nat.ltb_ge k 1)), (proj2 (Nat.ltb_lt k 5)) by lia. reflexivity. Qed.
Lemma vsz_out k : 5 <= k -> sz ver_lay k = sB.
Proof. intros H. cbn [ver_lay sz]. unfold ver_sz. rewrite (proj2 (Nat.ltb_ge k 1)), (proj2 (Nat.ltb_ge k 5)) by lia. reflexivity. Qed.
Lemma vreg_aligned k : 1 <= k < 5 -> aligned (reg ver_lay k).
Proof.
  intros H. pose proof (proj1 (proj2 (vc_slab _ _ _ _ _ _ _ _ _ _ HM))) as A. unfold aligned in *. cbn [ver_lay reg]. unfold ver_reg.
  rewrite (proj2 (Nat.ltb_ge k 1)), (proj2 (Nat.ltb_lt k 5)) by lia. cbn [snd]. unfold ver_off.
  match goal with |- (_ + ?a * (4 * W)) mod 4 = 0 => replace (a * (4 * W)) with (4 * (a * W)) by lia end. apply mod4_add, A.
Qed.

(** What is left in the scratch memory. *)
Lemma ver_slab m c : heap n ver_m1 ver_lay n m c -> exists l, pts n m qs l /\ length l = 16 * W /\ bytes_ok l.
Proof.
  intros H. pose proof (wf_W0 P HP) as W0. fold W in W0.
  assert (G : forall i, 1 <= i < 5 -> pts n m (ver_reg i) (c i) /\ length (c i) = 4 * W /\ bytes_ok (c i)).
  { intros i Hi. assert (Hc : i < cnt ver_lay) by (cbn [ver_lay cnt]; lia). split; [apply (heap_pts _ _ _ _ _ _ H i Hc)|].
    split; [rewrite (heap_len _ _ _ _ _ _ H i Hc); apply vsz_words, Hi|apply (heap_ok _ _ _ _ _ _ H i Hc)]. }
  destruct (G 1 ltac:(lia)) as (A1 & L1 & B1). destruct (G 2 ltac:(lia)) as (A2 & L2 & B2). destruct (G 3 ltac:(lia)) as (A3 & L3 & B3). destruct (G 4 ltac:(lia)) as (A4 & L4 & B4). clear G.
  assert (Hn : fst qs < n) by (apply A1). unfold ver_reg, ver_off in *. cbn [Nat.ltb Nat.leb Nat.sub Nat.add] in *. change (0 * (4 * W)) with 0 in A3. rewrite Nat.add_0_r, <- surjective_pairing in A3.
  exists (c 3 ++ c 4 ++ c 1 ++ c 2). split; [|split].
  - repeat (apply pts_app; split; [|split; [intros _; cbn [fst snd]|exact Hn]]).
    { exact A3. }
    { replace (_, _) with (fst qs, snd qs + 1 * (4 * W)) by (f_equal; rewrite L3; lia). exact A4. }
    { replace (_, _) with (fst qs, snd qs + 2 * (4 * W)) by (f_equal; rewrite L3, L4; lia). exact A1. }
    { replace (_, _) with (fst qs, snd qs + 3 * (4 * W)) by (f_equal; rewrite L3, L4, L1; lia). exact A2. }
  - rewrite !app_length, L1, L2, L3, L4. lia.
  - repeat (apply bytes_ok_app; split; [assumption|]). assumption.
Qed.

Lemma runs_mpc_LowMC_verify (Q : state -> Prop) :
  (forall m' u V1 V2, mpc_LowMC_verify E P (V 0) (V 1) (T 0, T 1) (16 * W) pt ch = Ok (V1, V2) ->
     pts n m' qc (v_communicatedBits V1) -> pts n m' (qo 0) (v_outputShare V1) -> pts n m' (qo 1) (v_outputShare V2) ->
     chg n (mm st) m' ws -> (exists l, pts n m' qs l /\ length l = 16 * W /\ bytes_ok l) ->
     Q (mkState (upd (iv st) 0 (3 * numSboxes P * numRounds P)) (dv st) (pv st) m' n u)) ->
  runs U (c_mpc_LowMC_verify P 0 1 2 3 (PV 4 (IC 0)) (PV 5 (IC 0)) 6 7 8 0 (IV 1)) st Q.
Proof.
  intros HQ. pose proof HM as [Hpos Hch (qt & Ht & HT) (qi & Hi & HI) (q2 & Hcm & Hc & Lc1 & Rc2 & Lc2) [Ho Hou] (qp & Hp & RP & Ap & Lp) (Hs & As & _) HA HK HL HR].
  fold ws in HT, HI, RP, HK, HL, HR, Rc2. destruct HC as (CK & CL & CC). fold W in CK, CL, CC, Lp.
  pose proof (wf_W0 P HP) as W0. pose proof (wf_W2 P HP) as W2. pose proof (wf_m P HP) as Wm. fold W in W0, W2. pose proof (wf_sB P HP) as WsB. pose proof (wf_n P HP) as Wn.
  pose proof (numBytes_spec (stateSizeBits P)) as NB. rewrite <- WsB in NB. fold sB in NB.
  unfold c_mpc_LowMC_verify. eapply runs_call; [cbn [pargevals pargeval pevals peval ieval]; rewrite Hp, Hs; cbn [nth_error]; reflexivity|].
  cbn [map ieval]. rewrite Hpos, Hch. rewrite Ht, Hi, Hcm, Ho. unfold mpc_LowMC_verify_body. fold W.
  destruct ver_memset as (_ & _ & Vz).
  apply runs_seq. eapply runs_memset; [reflexivity|csimpl; replace (4 * W * 4) with (16 * W) by lia; exact Vz|]. csimpl.
  replace (4 * W * 4) with (16 * W) by lia. change (set_mm _ _) with (mkState (args 0 [0; 0; ch]) (args 0%N []) (args [] [for2 qt; for2 qi; [qc; q2]; for2 qo; [qp]; [qs]; pv st 6; pv st 7; pv st 8]) ver_m1 n (ct st)).
  assert (R3 : ver_reg 3 = qs) by (unfold ver_reg, ver_off; cbn [Nat.ltb Nat.leb Nat.sub]; rewrite Nat.mul_0_l, Nat.add_0_r; symmetry; apply surjective_pairing).
  apply runs_seq. eapply (runs_pset U 11 _ [ver_reg 3; ver_reg 4]).
  { rewrite R3. csimpl. unfold ver_reg, ver_off. cbn [Nat.ltb Nat.leb Nat.sub Nat.add]. case qs. intros b o. cbn [fst snd]. apply some_list2; lia. }
  csimpl. apply runs_seq. eapply (runs_pset U 10 _ [ver_reg 1; ver_reg 2]).
  { csimpl. unfold ver_reg, ver_off. cbn [Nat.ltb Nat.leb Nat.sub Nat.add fst snd]. apply some_list2; lia. }
  flat. set (pv0 := upd _ 10 _). set (iv0 := args 0 [0; 0; ch]).
  assert (I2e : iv0 2 = ch) by reflexivity. assert (I0e : iv0 0 = 0) by reflexivity. clearbody iv0.
  assert (Q10e : pv0 10 = for2 (fun i => reg ver_lay (1 + i))) by reflexivity. assert (Q4e : pv0 4 = [qp]) by reflexivity.
  assert (Q1e : pv0 1 = for2 qi) by reflexivity.
  pose proof ver_heap0 as H0. fold n in H0.
  (* mpc_xor_constant_verify *)
  assert (XC : forall pv1 iv1 dv1 m u c pk q l (Q' : state -> Prop), pv1 10 = for2 (fun i => reg ver_lay (1 + i)) -> iv1 2 = ch ->
    peval iv1 pv1 pk = Some q -> reads st ws q l -> aligned q -> length l = 4 * W -> heap n ver_m1 ver_lay n m c ->
    (forall m' c', heap n ver_m1 ver_lay n m' c' -> mpc_xor_constant_verify (c 1, c 2) l W ch = Ok (c' 1, c' 2) ->
       (forall i, i <> 1 -> i <> 2 -> c' i = c i) -> Q' (mkState iv1 dv1 pv1 m' n u)) ->
    runs U (c_mpc_xor_constant_verify 10 pk (IC W) (IV 2)) (mkState iv1 dv1 pv1 m n u) Q').
  { intros pv1 iv1 dv1 m u c pk q l Q' E10 E2 Ek Rq Aq Ll Hm HQ'. unfold c_mpc_xor_constant_verify. eapply runs_call; [cbn [pargevals pargeval pevals pv iv]; rewrite Ek; reflexivity|].
    csimpl. rewrite E10, E2. unfold mpc_xor_constant_verify_body. eapply runs_if; [reflexivity|]. csimpl.
    assert (Rl : ro n ver_m1 ver_lay q l) by (apply ver_ro, Rq). assert (Bl : bytes_ok l) by apply Rq.
    destruct (Nat.eqb_spec ch 0) as [Hc0|Hc0].
    - apply (h_xor_constant n ver_m1 U ver_lay 0 (IC 0) _ _ _ c 1 q l); csimpl; auto.
      + cbn [ver_lay cnt]. lia.
      + apply vreg_aligned. lia.
      + intros m' r Hm' Hr. csimpl. eapply HQ'; [exact Hm'| |].
        * unfold mpc_xor_constant_verify. rewrite Hc0. cbn [Nat.eqb]. rewrite Hr. cbn [bind]. reflexivity.
        * intros i X1 X2. rewrite cset_neq by exact X1. reflexivity.
    - eapply runs_if; [reflexivity|]. csimpl. destruct (Nat.eqb_spec ch 2) as [Hc2|Hc2].
      + apply (h_xor_constant n ver_m1 U ver_lay 0 (IC 1) _ _ _ c 2 q l); csimpl; auto.
        * cbn [ver_lay cnt]. lia.
        * apply vreg_aligned. lia.
        * intros m' r Hm' Hr. csimpl. eapply HQ'; [exact Hm'| |].
          -- unfold mpc_xor_constant_verify. rewrite Hc2. cbn [Nat.eqb]. rewrite Hr. cbn [bind]. reflexivity.
          -- intros i X1 X2. rewrite cset_neq by exact X2. reflexivity.
      + apply runs_skip. csimpl. apply (HQ' m c Hm); [|auto]. unfold mpc_xor_constant_verify.
        rewrite (proj2 (Nat.eqb_neq _ _) Hc0), (proj2 (Nat.eqb_neq _ _) Hc2). reflexivity. }
  set (ms := numSboxes P) in *. set (R := numRounds P) in *.
  apply runs_seq. apply (XC _ _ _ _ _ ver_c0 _ qp pt); [exact Q10e|exact I2e|csimpl; rewrite Q4e; reflexivity|exact RP|exact Ap|exact Lp|exact H0|]. intros m1 c1 H1 F1 G1.
  apply runs_seq. eapply (runs_pset U 9 _ (for2 qi)); [csimpl; rewrite Q1e; reflexivity|]. flat.
  set (pv1 := upd pv0 9 (for2 qi)).
  assert (P0e : pv1 0 = for2 qt) by reflexivity. assert (P2e : pv1 2 = [qc; q2]) by reflexivity. assert (P3e : pv1 3 = for2 qo) by reflexivity.
  assert (P6e : pv1 6 = pv st 6) by reflexivity. assert (P7e : pv1 7 = pv st 7) by reflexivity. assert (P8e : pv1 8 = pv st 8) by reflexivity.
  assert (P9e : pv1 9 = for2 qi) by reflexivity. assert (P10e : pv1 10 = for2 (fun i => reg ver_lay (1 + i))) by reflexivity. assert (P11e : pv1 11 = for2 (fun i => reg ver_lay (3 + i))) by reflexivity.
  clearbody pv1. clear pv0 Q10e Q4e Q1e.
  assert (Rt : forall j, j < 2 -> ro n ver_m1 ver_lay (qt j) (T j)) by (intros j Hj; apply ver_ro, HT, Hj).
  assert (Rk : forall j, j < 2 -> aligned (qi j) /\ stateSizeBits P <= 8 * length (v_inputShare (V j)) /\ bytes_ok (v_inputShare (V j)) /\ ro n ver_m1 ver_lay (qi j) (v_inputShare (V j))).
  { intros j Hj. destruct (HI j Hj) as (A & B & C). split; [exact B|]. split; [exact C|]. split; [apply A|apply ver_ro, A]. }
  assert (N10 : forall i, i < 2 -> nth_error (pv1 10) i = Some (reg ver_lay (1 + i))) by (intros i H; rewrite P10e; apply (for2_nth (fun i => reg ver_lay (1 + i))), H).
  assert (N11 : forall i, i < 2 -> nth_error (pv1 11) i = Some (reg ver_lay (3 + i))) by (intros i H; rewrite P11e; apply (for2_nth (fun i => reg ver_lay (3 + i))), H).
  assert (N9 : forall i, i < 2 -> nth_error (pv1 9) i = Some (qi i)) by (intros i H; rewrite P9e; apply for2_nth, H).
  set (ins := (v_inputShare (V 0), v_inputShare (V 1))).
  assert (MMk : forall k iv1 dv1 m u c pk (Q' : state -> Prop), k <= R -> peval iv1 pv1 pk = nth_error (pv st 6) k -> heap n ver_m1 ver_lay n m c ->
    (forall m' c' u, heap n ver_m1 ver_lay n m' c' -> mpc_matrix_mul2 E P (c 3, c 4) ins (KMatrix E P k) = Ok (c' 3, c' 4) ->
       (forall i, i < 3 \/ 5 <= i -> c' i = c i) -> Q' (mkState iv1 dv1 pv1 m' n u)) ->
    runs U (c_mpc_matrix_mul P 11 9 pk (IC 2)) (mkState iv1 dv1 pv1 m n u) Q').
  { intros k iv1 dv1 m u c pk Q' Hk Ek Hm HQ'. destruct (HK k ltac:(lia)) as (q & Eq & Rq & Aq). destruct (CK k Hk) as [LK BK].
    apply (h_mpc_matrix_mul n ver_m1 U HU ver_lay E P HP HE 11 9 pk (IC 2) _ c 3 qi (fun i => v_inputShare (V i)) q (KMatrix E P k)); csimpl; auto.
    - rewrite Ek. exact Eq.
    - cbn [ver_lay cnt]. lia.
    - intros i H. apply vsz_words. lia.
    - intros i H. destruct (Rk i H) as (A & B & C & D). auto.
    - apply ver_ro, Rq.
    - intros m' c' u' Hm' Hd Hr. eapply HQ'; [exact Hm'| |].
      + unfold mpc_matrix_mul2. apply (duoM_Ok _ (fun i => c' (3 + i))). intros i H. rewrite <- Hd by exact H. destruct (lt2_cases i H) as [->| ->]; reflexivity.
      + intros i H. apply Hr. lia. }
  assert (MMl : forall k iv1 dv1 m u c pk (Q' : state -> Prop), k < R -> peval iv1 pv1 pk = nth_error (pv st 7) k -> heap n ver_m1 ver_lay n m c ->
    (forall m' c' u, heap n ver_m1 ver_lay n m' c' -> mpc_matrix_mul2 E P (c 1, c 2) (c 1, c 2) (LMatrix E P k) = Ok (c' 1, c' 2) ->
       (forall i, i < 1 \/ 3 <= i -> c' i = c i) -> Q' (mkState iv1 dv1 pv1 m' n u)) ->
    runs U (c_mpc_matrix_mul P 10 10 pk (IC 2)) (mkState iv1 dv1 pv1 m n u) Q').
  { intros k iv1 dv1 m u c pk Q' Hk Ek Hm HQ'. destruct (HL k ltac:(lia)) as (q & Eq & Rq & Aq). destruct (CL k Hk) as [LK BK].
    apply (h_mpc_matrix_mul n ver_m1 U HU ver_lay E P HP HE 10 10 pk (IC 2) _ c 1 (fun i => reg ver_lay (1 + i)) (fun i => c (1 + i)) q (LMatrix E P k)); csimpl; auto.
    - rewrite Ek. exact Eq.
    - cbn [ver_lay cnt]. lia.
    - intros i H. apply vsz_words. lia.
    - intros i H. split; [apply vreg_aligned; lia|]. assert (Hi3 : 1 + i < cnt ver_lay) by (cbn [ver_lay cnt]; lia).
      split; [rewrite (heap_len _ _ _ _ _ _ Hm _ Hi3), vsz_words by lia; lia|]. split; [apply (heap_ok _ _ _ _ _ _ Hm _ Hi3)|right; auto].
    - apply ver_ro, Rq.
    - intros m' c' u' Hm' Hd Hr. eapply HQ'; [exact Hm'| |].
      + unfold mpc_matrix_mul2. apply (duoM_Ok _ (fun i => c' (1 + i))). intros i H. rewrite <- Hd by exact H. destruct (lt2_cases i H) as [->| ->]; reflexivity.
      + intros i H. apply Hr. lia. }
  assert (XK : forall iv1 dv1 m u c (Q' : state -> Prop), heap n ver_m1 ver_lay n m c ->
    (forall m' c', heap n ver_m1 ver_lay n m' c' -> mpc_xor2 (c 1, c 2) (c 3, c 4) W = Ok (c' 1, c' 2) ->
       (forall i, i < 1 \/ 3 <= i -> c' i = c i) -> Q' (mkState iv1 dv1 pv1 m' n u)) ->
    runs U (c_mpc_xor 10 11 (IC W) (IC 2)) (mkState iv1 dv1 pv1 m n u) Q').
  { intros iv1 dv1 m u c Q' Hm HQ'.
    apply (h_mpc_xor n ver_m1 U ver_lay 10 11 (IC W) (IC 2) _ c 1 3); csimpl; auto.
    - cbn [ver_lay cnt]. lia.
    - cbn [ver_lay cnt]. lia.
    - intros i H. rewrite !vsz_words by lia. split; [reflexivity|]. split; [reflexivity|]. split; apply vreg_aligned; lia.
    - intros m' c' Hm' Hd Hr. eapply HQ'; [exact Hm'| |].
      + unfold mpc_xor2. apply (duoM_Ok _ (fun i => c' (1 + i))). intros i H. rewrite <- Hd by exact H. destruct (lt2_cases i H) as [->| ->]; reflexivity.
      + intros i H. apply Hr. lia. }
  (* before the rounds *)
  apply runs_seq. apply (MMk 0 _ _ _ _ c1); [lia|csimpl; rewrite P6e; reflexivity|exact H1|]. intros m2 c2 u2 H2 F2 G2.
  apply runs_seq. apply (XK _ _ _ _ c2); [exact H2|]. intros m3 c3 H3 F3 G3.
  assert (Cz : forall i, 1 <= i < 5 -> ver_c0 i = zero_words P).
  { intros i H. unfold ver_c0. rewrite (proj2 (Nat.ltb_ge i 1)), (proj2 (Nat.ltb_lt i 5)) by lia. reflexivity. }
  assert (Co : forall i, i < 2 -> ver_c0 (5 + i) = v_outputShare (V i)).
  { intros i H. destruct (lt2_cases i H) as [->| ->]; reflexivity. }
  rewrite !Cz in F1 by lia. rewrite (G1 3), (G1 4), !Cz in F2 by lia. rewrite (G2 1), (G2 2) in F3 by lia.
  assert (D3 : c3 0 = v_communicatedBits (V 0)) by (rewrite G3, G2, G1 by lia; reflexivity).
  assert (O3 : forall i, i < 2 -> c3 (5 + i) = v_outputShare (V i)) by (intros i H; rewrite G3, G2, G1, Co by lia; reflexivity).
  assert (K3 : forall i, 3 <= i < 5 -> c3 i = c2 i) by (intros i H; apply G3; lia).
  unfold mpc_LowMC_verify in HQ. rewrite guard_true in HQ by (apply Nat.leb_le; fold W; lia). cbn [dget bind] in HQ. fold W ins R in HQ.
  rewrite F1 in HQ. cbn [bind] in HQ. rewrite F2 in HQ. cbn [bind] in HQ. rewrite F3 in HQ. cbn [bind] in HQ.
  match type of HQ with context [for_loop R 1 ?f _] => set (fbody := f) in HQ end.
  assert (Hit : forall x, (ieval x (IC (R + 1)) - ieval x (IC 1) + (1 - 1)) / 1 = R) by (intros x; cbn [ieval]; rewrite Nat.div_1_r; lia).
  apply runs_seq. apply runs_for with (I := fun k z => pv z = pv1 /\ nx z = n /\ iv z 0 = 3 * ms * k /\ iv z 2 = ch /\ exists c', heap n ver_m1 ver_lay n (mm z) c' /\
    for_loop k 1 fbody ((c3 1, c3 2), (c2 3, c2 4), v_communicatedBits (V 0), 0)
      = Ok ((c' 1, c' 2), (c' 3, c' 4), c' 0, 3 * ms * k) /\ forall i, i < 2 -> c' (5 + i) = v_outputShare (V i)).
  - cbn [pv nx iv mm]. split; [reflexivity|]. split; [reflexivity|]. split; [rewrite I0e; lia|]. split; [exact I2e|]. exists c3. split; [exact H3|]. split; [|exact O3].
    cbn [for_loop]. rewrite (K3 3), (K3 4), D3 by (clear; lia). rewrite Nat.mul_0_r. reflexivity.
  - rewrite Hit. intros k z Hk (Zp & Zn & Zi & Zc & c' & Hh & Hf & Ho'). destruct z as [zi zd zp zm zn zu]. cbn [pv nx iv mm] in Zp, Zn, Zi, Zc, Hh. subst zp zn.
    unfold set_iv. cbn [iv dv pv mm nx ct ieval]. replace (1 + k * 1) with (S k) by lia.
    set (iv1 := upd zi 1 (S k)). assert (I1 : iv1 1 = S k) by reflexivity. assert (I0 : iv1 0 = 3 * ms * k) by exact Zi. assert (I5 : iv1 2 = ch) by exact Zc.
    apply runs_seq. apply (MMk (S k) _ _ _ _ c'); [lia|csimpl; rewrite P6e, I1; reflexivity|exact Hh|]. intros m4 c4 u4 H4 F4 G4.
    assert (Bk : 3 * ms * k + 3 * ms <= 3 * ms * R) by (clear - Hk; nia).
    apply runs_seq. apply (runs_mpc_substitution_verify n ver_m1 U HU P ver_lay (qt 0) (qt 1) q2 (T 0) (T 1) (v_communicatedBits (V 1)) eq_refl (Rt 0 ltac:(lia)) (Rt 1 ltac:(lia)) (ver_ro _ _ Rc2) 10 0 _ _ 0 _ c4 (3 * ms * k)); csimpl.
    all: try assumption; fold ms.
    { rewrite P2e. reflexivity. }
    { rewrite P2e. reflexivity. }
    { intros j Hj. rewrite vsz_words by lia. fold ms in Wm. lia. }
    { change (sz ver_lay 0) with (length (v_communicatedBits (V 0))). lia. }
    { pose proof (proj2 (HT 0 ltac:(lia))) as B. fold ms R in B. lia. }
    { pose proof (proj2 (HT 1 ltac:(lia))) as B. fold ms R in B. lia. }
    { lia. }
    intros m5 c5 u5 F5 H5 G5. replace (3 * ms * k + 3 * ms) with (3 * ms * S k) in * by lia.
    set (iv2 := upd iv1 0 _). assert (I2 : iv2 1 - 1 = k) by (change (iv2 1) with (S k); lia). assert (I3 : iv2 0 = 3 * ms * S k) by reflexivity. assert (I4 : iv2 2 = ch) by exact I5. clearbody iv2.
    destruct (HR k ltac:(lia)) as (q & Eq & Rq & Aq). destruct (CC k ltac:(lia)) as (LR & BR & _).
    apply runs_seq. apply (MMl k _ _ _ _ c5); [exact Hk|csimpl; rewrite P7e, I2; reflexivity|exact H5|]. intros m6 c6 u6 H6 F6 G6.
    apply runs_seq. apply (XC _ _ _ _ _ c6 _ q (RConstant E P k)); [exact P10e|exact I4|csimpl; rewrite P8e, I2, Eq; reflexivity|exact Rq|exact Aq|exact LR|exact H6|]. intros m7 c7 H7 F7 G7.
    apply (XK _ _ _ _ c7); [exact H7|]. intros m8 c8 H8 F8 G8. cbn [pv nx iv mm].
    split; [reflexivity|]. split; [reflexivity|]. split; [exact I3|]. split; [exact I4|]. exists c8. split; [exact H8|]. split.
    + rewrite for_loop_snoc, Hf, bind_Ok. replace (1 + k) with (S k) by lia. unfold fbody. rewrite F4, bind_Ok.
      rewrite <- (G4 1), <- (G4 2), <- (G4 0) by (clear; lia). rewrite F5, bind_Ok. replace (S k - 1) with k by (clear; lia).
      rewrite F6, bind_Ok, F7, bind_Ok. rewrite <- (G5 3), <- (G5 4), <- (G6 3), <- (G6 4), <- (G7 3), <- (G7 4) by (clear; lia).
      rewrite F8, bind_Ok. rewrite <- (G6 0), <- (G7 0) by (clear; lia).
      rewrite (G8 3), (G8 4), (G8 0) by (clear; lia). reflexivity.
    + intros i Hi3. rewrite G8, G7, G6, G5, G4 by (clear - Hi3; lia). apply Ho', Hi3.
  - rewrite Hit. intros z (Zp & Zn & Zi & Zc & c' & Hh & Hf & Ho'). destruct z as [zi zd zp zm zn zu]. cbn [pv nx iv mm] in Zp, Zn, Zi, Zc, Hh. subst zp zn.
    match type of HQ with context [for_loop R 1 fbody ?a] => set (fl := for_loop R 1 fbody a) in HQ; change (for_loop _ _ _ _) with fl in Hf; rewrite Hf in HQ; clear fl Hf end.
    cbn [bind dget] in HQ.
    assert (MC : forall i iv1 dv1 m u c (Q' : state -> Prop), i < 2 -> heap n ver_m1 ver_lay n m c ->
      (forall m', heap n ver_m1 ver_lay n m' (cset c (5 + i) (firstn sB (c (1 + i)))) -> Q' (mkState iv1 dv1 pv1 m' n u)) ->
      runs U (MemCpy (PV 3 (IC i)) (PV 10 (IC i)) (IC (stateSizeBytes P))) (mkState iv1 dv1 pv1 m n u) Q').
    { intros i iv1 dv1 m u c Q' Hi3 Hm HQ'. fold sB. apply (h_memcpy n ver_m1 U ver_lay _ _ (IC sB) _ c (5 + i) (1 + i)); csimpl.
      - rewrite P3e, (for2_nth qo) by exact Hi3. rewrite <- (vreg_out i Hi3). reflexivity.
      - apply N10, Hi3.
      - cbn [ver_lay cnt]. lia.
      - cbn [ver_lay cnt]. lia.
      - lia.
      - apply vsz_out. lia.
      - rewrite vsz_words by lia. lia.
      - lia.
      - exact Hm.
      - exact HQ'. }
    apply runs_seq. eapply (MC 0 _ _ _ _ c'); [lia|exact Hh|]. intros m9 H9. cbn [iv dv pv mm nx ct].
    eapply (MC 1); [lia|exact H9|]. intros m10 H10. cbn [iv dv pv mm nx ct].
    match type of H10 with heap _ _ _ _ _ ?x => set (c9 := x) in H10 end.
    assert (C9 : c9 0 = c' 0) by reflexivity. assert (C95 : c9 5 = firstn sB (c' 1)) by reflexivity. assert (C96 : c9 6 = firstn sB (c' 2)) by reflexivity.
    replace (upd _ 0 _) with (upd (iv st) 0 (3 * ms * R)) by (f_equal; symmetry; exact Zi).
    assert (Ls : forall i, 1 <= i < 3 -> sB <= length (c' i)).
    { intros i Hx. assert (Hi12 : i < cnt ver_lay) by (cbn [ver_lay cnt]; clear - Hx; lia). rewrite (heap_len _ _ _ _ _ _ Hh i Hi12), vsz_words by (clear - Hx; lia). clear - NB W2. lia. }
    assert (L1 : sB <= length (c' 1)) by (apply Ls; clear; lia). assert (L2 : sB <= length (c' 2)) by (apply Ls; clear; lia).
    fold sB in HQ. rewrite (slice0_ok (c' 1)), bind_Ok in HQ by exact L1. rewrite blit0_all, bind_Ok in HQ by (rewrite firstn_length_le by exact L1; symmetry; apply (Hou 0); clear; lia).
    rewrite (slice0_ok (c' 2)), bind_Ok in HQ by exact L2. rewrite blit0_all, bind_Ok in HQ by (rewrite firstn_length_le by exact L2; symmetry; apply (Hou 1); clear; lia).
    assert (B0 : 0 < cnt ver_lay) by (cbn; clear; lia). assert (B5 : 5 < cnt ver_lay) by (cbn; clear; lia). assert (B6 : 6 < cnt ver_lay) by (cbn; clear; lia).
    eapply (HQ m10 zu); [reflexivity| | | | |].
    + cbn [v_communicatedBits]. rewrite <- C9. exact (heap_pts _ _ _ _ _ _ H10 0 B0).
    + cbn [v_outputShare]. rewrite <- C95. exact (heap_pts _ _ _ _ _ _ H10 5 B5).
    + cbn [v_outputShare]. rewrite <- C96. exact (heap_pts _ _ _ _ _ _ H10 6 B6).
    + apply ver_chg. apply (heap_chg _ _ _ _ _ _ H10).
    + apply (ver_slab m10 c9 H10).
Qed.
End S.
