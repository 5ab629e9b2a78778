(** The ZKB++ computation of the signer on memory with pointers. *)

From Coq Require Import List NArith Arith Bool Lia ZifyBool ZifyNat ZifyN.
From Verif Require Import Base Params Env Spec LowMC Picnic1 MiniC CodeLowMC CodeZkb CodeSpec CodeZkbSpec BaseFacts ParamFacts LowMCFacts
  MiniCFacts CodeRules CodeLowMCProofs CodeHeap CodeZkbProofs CodeZkbBits CodeZkbSub CodeZkbMpc.
Import ListNotations.

Lemma disj_sub p k q l o k' : disj p k q l -> o + k' <= k -> disj (fst p, snd p + o) k' q l.
Proof. unfold disj. cbn [fst snd]. intros [H|[H|H]] Ho; [left; exact H|right; left; lia|right; right; lia]. Qed.
Lemma disj_sub2 p k q l o k' : disj p k q l -> o + k' <= l -> disj p k (fst q, snd q + o) k'.
Proof. intros H Ho. apply disj_sym. eapply disj_sub; [apply disj_sym; exact H|exact Ho]. Qed.
Lemma firstn_skipn_zeros n o k : o + k <= n -> firstn k (skipn o (zeros n)) = zeros k.
Proof.
  intros H. unfold zeros. replace n with (o + (k + (n - o - k))) by lia. rewrite !repeat_app.
  rewrite skipn_app, skipn_all2 by (rewrite repeat_length; lia). rewrite repeat_length, Nat.sub_diag. cbn [skipn app].
  rewrite firstn_app, firstn_all2 by (rewrite repeat_length; lia). rewrite repeat_length, Nat.sub_diag. cbn [firstn]. apply app_nil_r.
Qed.
Lemma some_list3 (b x y z x' y' z' : nat) : x = x' -> y = y' -> z = z' -> Some [(b, x); (b, y); (b, z)] = Some [(b, x'); (b, y'); (b, z')].
Proof. intros -> -> ->. reflexivity. Qed.
Lemma lt3_cases j : j < 3 -> j = 0 \/ j = 1 \/ j = 2.
Proof. lia. Qed.
Lemma for3_nth q j : j < 3 -> nth_error (for3 q) j = Some (q j).
Proof. intros H. destruct (lt3_cases j H) as [->|[->| ->]]; reflexivity. Qed.
Lemma triM_Ok {A} (f : nat -> res A) (g : nat -> A) : (forall i, i < 3 -> f i = Ok (g i)) -> triM f = Ok (g 0, g 1, g 2).
Proof. intros H. unfold triM. rewrite (H 0), (H 1), (H 2) by lia. reflexivity. Qed.

Section S.
Variables (U : nat -> nat -> bytes) (HU : locals_ok U) (E : env) (P : paramset) (HP : wfP P) (HE : env_bytes_ok E) (HC : constants_ok E P).
Variables (st : state) (T : nat -> bytes) (V : nat -> view) (pt : bytes) (qs : ptr) (qc qo : nat -> ptr).
Hypothesis HM : mpc_call E P st T V pt qs qc qo.
Let W := stateSizeWords P.
Let sB := stateSizeBytes P.
Let n := nx st.
Let ws := mpc_writes P V qs qc qo.

(** Communicated bits 0-2, state 3-5, roundKey 6-8, output shares 9-11. *)
Definition run_reg (i : nat) : ptr :=
  if i <? 3 then qc i else if i <? 6 then (fst qs, snd qs + i * (4 * W)) else if i <? 9 then (fst qs, snd qs + (i - 6) * (4 * W)) else qo (i - 9).
Definition run_sz (i : nat) : nat :=
  if i <? 3 then length (v_communicatedBits (V i)) else if i <? 9 then 4 * W else sB.
Definition run_lay : layout := mkLayout 12 run_reg run_sz.
Definition run_c0 (i : nat) : bytes :=
  if i <? 3 then v_communicatedBits (V i) else if i <? 9 then zeros (4 * W) else v_outputShare (V (i - 9)).

(** Every region is part of one that may be written. *)
Lemma run_part i : i < 12 -> exists x p k o, nth_error ws x = Some (p, k) /\ run_reg i = (fst p, snd p + o) /\ o + run_sz i <= k /\
  (x = 0 -> 3 <= i < 9 /\ o = ((i + 0) mod 6) * (4 * W)) /\ (0 < x -> o = 0 /\ i = if x <? 4 then x - 1 else x + 5).
Proof.
  intros Hi. unfold run_reg, run_sz, ws, mpc_writes. fold W sB. destruct (Nat.ltb_spec i 3).
  - exists (S i), (qc i), (length (v_communicatedBits (V i))), 0. split; [destruct (lt3_cases i H) as [->|[->| ->]]; reflexivity|].
    split; [rewrite Nat.add_0_r; apply surjective_pairing|]. split; [lia|]. split; [lia|]. intros _. split; [reflexivity|]. rewrite (proj2 (Nat.ltb_lt (S i) 4)) by lia. lia.
  - destruct (Nat.ltb_spec i 9).
    + exists 0, qs, (24 * W). destruct (Nat.ltb_spec i 6).
      * exists (i * (4 * W)). split; [reflexivity|]. split; [reflexivity|]. split; [nia|]. split; [|lia]. intros _. split; [lia|]. rewrite Nat.add_0_r, Nat.mod_small by lia. reflexivity.
      * exists ((i - 6) * (4 * W)). split; [reflexivity|]. split; [reflexivity|]. split; [nia|]. split; [|lia]. intros _. split; [lia|].
        f_equal. replace (i + 0) with (i - 6 + 1 * 6) by lia. rewrite Nat.mod_add, Nat.mod_small by lia. reflexivity.
    + exists (i - 5), (qo (i - 9)), sB, 0. destruct (Nat.ltb_spec i 6); [lia|]. split.
      { assert (i - 9 = 0 \/ i - 9 = 1 \/ i - 9 = 2) as [H'|[H'|H']] by lia; rewrite H'; [replace i with 9 by lia|replace i with 10 by lia|replace i with 11 by lia]; reflexivity. }
      split; [rewrite Nat.add_0_r; apply surjective_pairing|]. split; [lia|]. split; [lia|]. intros _. split; [reflexivity|]. rewrite (proj2 (Nat.ltb_ge (i - 5) 4)) by lia. lia.
Qed.

Lemma run_outside i q k : i < 12 -> outside ws q k -> disj (run_reg i) (run_sz i) q k.
Proof.
  intros Hi Ho. destruct (run_part i Hi) as (x & p & l & o & Hx & -> & Hl & _). apply disj_sub with (k := l); [|exact Hl].
  apply Ho. exact (nth_error_In _ _ Hx).
Qed.

Lemma run_apart i j : i < 12 -> j < 12 -> i <> j -> disj (run_reg i) (run_sz i) (run_reg j) (run_sz j).
Proof.
  intros Hi Hj Hne. destruct (run_part i Hi) as (x & p & l & o & Hx & E1 & Hl & X0 & X1), (run_part j Hj) as (x' & p' & l' & o' & Hx' & E2 & Hl' & Y0 & Y1).
  destruct (Nat.eq_dec x x') as [<-|Hxx].
  - assert (x = 0). { destruct x; [reflexivity|]. destruct (X1 ltac:(lia)) as [_ A], (Y1 ltac:(lia)) as [_ B]. lia. }
    subst x. destruct (X0 eq_refl) as [A ->], (Y0 eq_refl) as [B ->]. rewrite E1, E2. rewrite Hx in Hx'. injection Hx' as <- <-.
    assert (S1 : run_sz i = 4 * W) by (unfold run_sz; rewrite (proj2 (Nat.ltb_ge i 3)), (proj2 (Nat.ltb_lt i 9)) by lia; reflexivity).
    assert (S2 : run_sz j = 4 * W) by (unfold run_sz; rewrite (proj2 (Nat.ltb_ge j 3)), (proj2 (Nat.ltb_lt j 9)) by lia; reflexivity).
    rewrite S1, S2. rewrite !Nat.add_0_r. assert (M : i mod 6 <> j mod 6).
    { assert (K : forall a, 3 <= a < 9 -> a mod 6 = if a <? 6 then a else a - 6).
      { intros a Ha. destruct (Nat.ltb_spec a 6); [apply Nat.mod_small; lia|]. replace a with (a - 6 + 1 * 6) at 1 by lia. rewrite Nat.mod_add, Nat.mod_small by lia. reflexivity. }
      rewrite !K by lia. destruct (Nat.ltb_spec i 6), (Nat.ltb_spec j 6); lia. }
    right. cbn [fst snd]. nia.
  - rewrite E1, E2. apply disj_sub with (k := l); [|exact Hl]. apply disj_sub2 with (l := l'); [|exact Hl'].
    exact (mc_apart _ _ _ _ _ _ _ _ _ HM x x' p l p' l' Hx Hx' Hxx).
Qed.

(** Memory after [memset]. *)
Definition run_m1 : memory := wrmem (mm st) qs (repeat 0%N (24 * W)).

Lemma run_memset : pts n run_m1 qs (zeros (24 * W)) /\ chg n (mm st) run_m1 [(qs, 24 * W)] /\ valid (mm st) (24 * W) 1 qs = true.
Proof.
  destruct (mc_slab _ _ _ _ _ _ _ _ _ HM) as (_ & _ & l & Pl & Ll). fold W in Ll. pose proof (wf_W0 P HP) as W0. fold W in W0.
  destruct (wrmem_pts n (mm st) qs (repeat 0%N (24 * W))) as [A B].
  - apply Pl.
  - rewrite repeat_length, <- Ll. apply (pts_bound n). exact Pl. intros ->. cbn in Ll. lia.
  - rewrite repeat_length in B. split; [exact A|]. split; [exact B|]. apply (pts_valid n _ _ l); [exact Pl|lia|lia|apply Nat.mod_1_r].
Qed.

Lemma run_ro q l : reads st ws q l -> ro n run_m1 run_lay q l.
Proof.
  intros (Hq & _ & Ho). destruct run_memset as (_ & C & _). split.
  - apply (pts_chg1 _ _ _ _ _ _ _ C Hq). apply Ho. left. reflexivity.
  - intros k Hk. apply run_outside; auto.
Qed.

Lemma run_heap0 : heap n run_m1 run_lay n run_m1 run_c0.
Proof.
  destruct run_memset as (Pz & C & _).
  destruct (mc_comm _ _ _ _ _ _ _ _ _ HM) as [_ Hcm]. destruct (mc_out _ _ _ _ _ _ _ _ _ HM) as [_ Hout].
  pose proof (mc_apart _ _ _ _ _ _ _ _ _ HM) as HA. fold ws in HA.
  assert (Sx : forall x p k, 0 < x -> nth_error ws x = Some (p, k) -> disj qs (24 * W) p k).
  { intros x p k Hx Hn. apply (HA 0 x qs (24 * W) p k eq_refl Hn). lia. }
  assert (Pi : forall k, k < 12 -> pts n run_m1 (run_reg k) (run_c0 k) /\ length (run_c0 k) = run_sz k /\ bytes_ok (run_c0 k)).
  { intros k Hk. unfold run_c0, run_sz, run_reg. destruct (Nat.ltb_spec k 3) as [H3|H3].
    - destruct (Hcm k H3) as [[A B] _]. split; [|auto]. apply (pts_chg1 _ _ _ _ _ _ _ C A).
      apply (Sx (S k)); [lia|]. destruct (lt3_cases k H3) as [->|[->| ->]]; reflexivity.
    - destruct (Nat.ltb_spec k 9) as [H9|H9].
      + split; [|split; [apply length_zeros|apply bytes_ok_zeros]].
        assert (K : forall o, o + 4 * W <= 24 * W -> pts n run_m1 (fst qs, snd qs + o) (zeros (4 * W))).
        { intros o Ho. pose proof (pts_sub _ _ _ _ o (4 * W) Pz ltac:(rewrite length_zeros; exact Ho)) as A. rewrite firstn_skipn_zeros in A by exact Ho. exact A. }
        destruct (Nat.ltb_spec k 6); apply K; nia.
      + destruct (Nat.ltb_spec k 6); [lia|]. assert (Hj : k - 9 < 3) by lia. destruct (Hout (k - 9) Hj) as [[A B] Lo]. fold sB in Lo. split; [|split; [exact Lo|exact B]].
        apply (pts_chg1 _ _ _ _ _ _ _ C A). rewrite Lo. apply (Sx (4 + (k - 9))); [lia|].
        destruct (lt3_cases _ Hj) as [->|[->| ->]]; reflexivity. }
  split.
  - split; [lia| |].
    + intros k Hk. apply Pi, Hk.
    + intros i j Hi Hj. apply run_apart; auto.
  - intros k Hk. apply Pi, Hk.
  - intros k Hk. apply Pi, Hk.
  - intros k Hk. apply Pi, Hk.
  - apply chg_refl.
Qed.

Lemma run_chg m' : chg n run_m1 m' (regions run_lay) -> chg n (mm st) m' ws.
Proof.
  intros H. destruct run_memset as (_ & C & _). eapply chg_trans with (r2 := ws); [exact C| |intros x [<-|[]]; left; reflexivity|auto].
  apply (chg_mono n run_m1 m' _ _ H). intros p k Hp _. apply in_regions in Hp. destruct Hp as (i & Hi & -> & ->).
  destruct (run_part i Hi) as (x & p & l & o & Hx & E1 & Hl & _). exists p, l. split; [exact (nth_error_In _ _ Hx)|].
  change (reg run_lay i) with (run_reg i). change (sz run_lay i) with (run_sz i). rewrite E1. cbn [fst snd]. lia.
Qed.

Lemma reg_lo i : i < 3 -> run_reg i = qc i.
Proof. intros H. unfold run_reg. rewrite (proj2 (Nat.ltb_lt i 3) H). reflexivity. Qed.
Lemma reg_out i : i < 3 -> run_reg (9 + i) = qo i.
Proof. intros H. destruct (lt3_cases i H) as [->|[->| ->]]; reflexivity. Qed.
Lemma sz_words k : 3 <= k < 9 -> sz run_lay k = 4 * W.
Proof. intros H. cbn [run_lay sz]. unfold run_sz. rewrite (proj2 (Nat.ltb_ge k 3)), (proj2 (Nat.ltb_lt k 9)) by lia. reflexivity. Qed.
Lemma sz_out k : 9 <= k -> sz run_lay k = sB.
Proof. intros H. cbn [run_lay sz]. unfold run_sz. rewrite (proj2 (Nat.ltb_ge k 3)), (proj2 (Nat.ltb_ge k 9)) by lia. reflexivity. Qed.
Lemma reg_aligned k : 3 <= k < 9 -> aligned (reg run_lay k).
Proof.
  intros H. pose proof (proj1 (proj2 (mc_slab _ _ _ _ _ _ _ _ _ HM))) as A. unfold aligned in *. cbn [run_lay reg]. unfold run_reg.
  rewrite (proj2 (Nat.ltb_ge k 3)) by lia. destruct (Nat.ltb_spec k 6); [|rewrite (proj2 (Nat.ltb_lt k 9)) by lia]; cbn [snd].
  - replace (k * (4 * W)) with (4 * (k * W)) by lia. apply mod4_add, A.
  - replace ((k - 6) * (4 * W)) with (4 * ((k - 6) * W)) by lia. apply mod4_add, A.
Qed.

(** What is left in the scratch memory. *)
Lemma run_slab m c : heap n run_m1 run_lay n m c -> exists l, pts n m qs l /\ length l = 24 * W /\ bytes_ok l.
Proof.
  intros H. pose proof (wf_W0 P HP) as W0. fold W in W0.
  assert (G : forall i, 3 <= i < 9 -> pts n m (run_reg i) (c i) /\ length (c i) = 4 * W /\ bytes_ok (c i)).
  { intros i Hi. assert (Hc : i < cnt run_lay) by (cbn [run_lay cnt]; lia). split; [apply (heap_pts _ _ _ _ _ _ H i Hc)|].
    split; [rewrite (heap_len _ _ _ _ _ _ H i Hc); apply sz_words, Hi|apply (heap_ok _ _ _ _ _ _ H i Hc)]. }
  destruct (G 6 ltac:(lia)) as (A6 & L6 & B6). destruct (G 7 ltac:(lia)) as (A7 & L7 & B7). destruct (G 8 ltac:(lia)) as (A8 & L8 & B8).
  destruct (G 3 ltac:(lia)) as (A3 & L3 & B3). destruct (G 4 ltac:(lia)) as (A4 & L4 & B4). destruct (G 5 ltac:(lia)) as (A5 & L5 & B5). clear G.
  assert (Hn : fst qs < n) by (apply A6). unfold run_reg in *. cbn [Nat.ltb Nat.leb Nat.sub] in *. change ((6 - 6) * (4 * W)) with 0 in A6. rewrite Nat.add_0_r, <- surjective_pairing in A6.
  exists (c 6 ++ c 7 ++ c 8 ++ c 3 ++ c 4 ++ c 5). split; [|split].
  - repeat (apply pts_app; split; [|split; [intros _; cbn [fst snd]|exact Hn]]).
    { exact A6. }
    { replace (_, _) with (fst qs, snd qs + (7 - 6) * (4 * W)) by (f_equal; rewrite L6; lia). exact A7. }
    { replace (_, _) with (fst qs, snd qs + (8 - 6) * (4 * W)) by (f_equal; rewrite L6, L7; lia). exact A8. }
    { replace (_, _) with (fst qs, snd qs + 3 * (4 * W)) by (f_equal; rewrite L6, L7, L8; lia). exact A3. }
    { replace (_, _) with (fst qs, snd qs + 4 * (4 * W)) by (f_equal; rewrite L6, L7, L8, L3; lia). exact A4. }
    { replace (_, _) with (fst qs, snd qs + 5 * (4 * W)) by (f_equal; rewrite L6, L7, L8, L3, L4; lia). exact A5. }
  - rewrite !app_length, L6, L7, L8, L3, L4, L5. lia.
  - apply bytes_ok_app; split; [assumption|]. repeat (apply bytes_ok_app; split; [assumption|]). assumption.
Qed.

Lemma runs_mpc_LowMC (Q : state -> Prop) :
  (forall m' u V', mpc_LowMC E P (T 0, T 1, T 2) (V 0, V 1, V 2) pt (24 * W) = Ok V' ->
     (forall j, j < 3 -> pts n m' (qc j) (v_communicatedBits (tget V' j)) /\ pts n m' (qo j) (v_outputShare (tget V' j)) /\
        v_inputShare (tget V' j) = v_inputShare (V j)) ->
     chg n (mm st) m' ws -> (exists l, pts n m' qs l /\ length l = 24 * W /\ bytes_ok l) ->
     Q (mkState (upd (iv st) 0 (3 * numSboxes P * numRounds P)) (dv st) (pv st) m' n u)) ->
  runs U (c_mpc_LowMC P 0 1 2 3 (PV 4 (IC 0)) (PV 5 (IC 0)) 6 7 8 0) st Q.
Proof.
  intros HQ. pose proof HM as [Hpos (qt & Ht & HT) (qi & Hi & HI) [Hcm Hc] [Ho Hou] (qp & Hp & RP & Ap & Lp) (Hs & As & _) HA HK HL HR].
  fold ws in HT, HI, RP, HK, HL, HR. destruct HC as (CK & CL & CC). fold W in CK, CL, CC, Lp.
  pose proof (wf_W0 P HP) as W0. pose proof (wf_W2 P HP) as W2. pose proof (wf_m P HP) as Wm. fold W in W0, W2. pose proof (wf_sB P HP) as WsB. pose proof (wf_n P HP) as Wn.
  pose proof (numBytes_spec (stateSizeBits P)) as NB. rewrite <- WsB in NB. fold sB in NB.
  unfold c_mpc_LowMC. eapply runs_call; [cbn [pargevals pargeval pevals peval ieval]; rewrite Hp, Hs; cbn [nth_error]; reflexivity|].
  cbn [map ieval]. rewrite Hpos. rewrite Ht, Hi, Hcm, Ho. unfold mpc_LowMC_body. fold W.
  destruct run_memset as (_ & _ & Vz).
  apply runs_seq. eapply runs_memset; [reflexivity|csimpl; replace (6 * W * 4) with (24 * W) by lia; exact Vz|]. csimpl.
  replace (6 * W * 4) with (24 * W) by lia. change (set_mm _ _) with (mkState (args 0 [0]) (args 0%N []) (args [] [for3 qt; for3 qi; for3 qc; for3 qo; [qp]; [qs]; pv st 6; pv st 7; pv st 8]) run_m1 n (ct st)).
  assert (R6 : run_reg 6 = qs) by (unfold run_reg; cbn [Nat.ltb Nat.leb Nat.sub]; rewrite Nat.mul_0_l, Nat.add_0_r; symmetry; apply surjective_pairing).
  apply runs_seq. eapply (runs_pset U 11 _ [run_reg 6; run_reg 7; run_reg 8]).
  { rewrite R6. csimpl. unfold run_reg. cbn [Nat.ltb Nat.leb Nat.sub]. case qs. intros b o. cbn [fst snd]. apply some_list3; lia. }
  csimpl. apply runs_seq. eapply (runs_pset U 10 _ [run_reg 3; run_reg 4; run_reg 5]).
  { csimpl. unfold run_reg. cbn [Nat.ltb Nat.leb Nat.sub fst snd]. apply some_list3; lia. }
  csimpl. apply runs_seq. eapply (runs_pset U 9 _ (for3 qi)); [reflexivity|]. flat.
  set (pv1 := upd _ 9 _).
  assert (P0e : pv1 0 = for3 qt) by reflexivity. assert (P2e : pv1 2 = for3 qc) by reflexivity. assert (P3e : pv1 3 = for3 qo) by reflexivity.
  assert (P4e : pv1 4 = [qp]) by reflexivity. assert (P6e : pv1 6 = pv st 6) by reflexivity. assert (P7e : pv1 7 = pv st 7) by reflexivity. assert (P8e : pv1 8 = pv st 8) by reflexivity.
  assert (P9e : pv1 9 = for3 qi) by reflexivity. assert (P10e : pv1 10 = for3 (fun i => reg run_lay (3 + i))) by reflexivity. assert (P11e : pv1 11 = for3 (fun i => reg run_lay (6 + i))) by reflexivity.
  clearbody pv1.
  assert (Rt : forall j, j < 3 -> ro n run_m1 run_lay (qt j) (T j)) by (intros j Hj; apply run_ro, HT, Hj).
  assert (Rk : forall j, j < 3 -> aligned (qi j) /\ stateSizeBits P <= 8 * length (v_inputShare (V j)) /\ bytes_ok (v_inputShare (V j)) /\ ro n run_m1 run_lay (qi j) (v_inputShare (V j))).
  { intros j Hj. destruct (HI j Hj) as (A & B & C). split; [exact B|]. split; [exact C|]. split; [apply A|apply run_ro, A]. }
  pose proof run_heap0 as H0. fold n in H0.
  assert (N10 : forall i, i < 3 -> nth_error (pv1 10) i = Some (reg run_lay (3 + i))) by (intros i H; rewrite P10e; apply (for3_nth (fun i => reg run_lay (3 + i))), H).
  assert (N11 : forall i, i < 3 -> nth_error (pv1 11) i = Some (reg run_lay (6 + i))) by (intros i H; rewrite P11e; apply (for3_nth (fun i => reg run_lay (6 + i))), H).
  assert (N9 : forall i, i < 3 -> nth_error (pv1 9) i = Some (qi i)) by (intros i H; rewrite P9e; apply for3_nth, H).
  (* the three layers *)
  set (ins := (v_inputShare (V 0), v_inputShare (V 1), v_inputShare (V 2))).
  assert (MMk : forall k iv1 dv1 m u c pk (Q' : state -> Prop), k <= numRounds P -> peval iv1 pv1 pk = nth_error (pv st 6) k -> heap n run_m1 run_lay n m c ->
    (forall m' c' u, heap n run_m1 run_lay n m' c' -> mpc_matrix_mul3 E P (c 6, c 7, c 8) ins (KMatrix E P k) = Ok (c' 6, c' 7, c' 8) ->
       (forall i, i < 6 \/ 9 <= i -> c' i = c i) -> Q' (mkState iv1 dv1 pv1 m' n u)) ->
    runs U (c_mpc_matrix_mul P 11 9 pk (IC 3)) (mkState iv1 dv1 pv1 m n u) Q').
  { intros k iv1 dv1 m u c pk Q' Hk Ek Hm HQ'. destruct (HK k ltac:(lia)) as (q & Eq & Rq & Aq). destruct (CK k Hk) as [LK BK].
    apply (h_mpc_matrix_mul n run_m1 U HU run_lay E P HP HE 11 9 pk (IC 3) _ c 6 qi (fun i => v_inputShare (V i)) q (KMatrix E P k)); csimpl; auto.
    - rewrite Ek. exact Eq.
    - cbn [run_lay cnt]. lia.
    - intros i H. apply sz_words. lia.
    - intros i H. destruct (Rk i H) as (A & B & C & D). auto.
    - apply run_ro, Rq.
    - intros m' c' u' Hm' Hd Hr. eapply HQ'; [exact Hm'| |].
      + unfold mpc_matrix_mul3. apply (triM_Ok _ (fun i => c' (6 + i))). intros i H. rewrite <- Hd by exact H. destruct (lt3_cases i H) as [->|[->| ->]]; reflexivity.
      + intros i H. apply Hr. lia. }
  assert (MMl : forall k iv1 dv1 m u c pk (Q' : state -> Prop), k < numRounds P -> peval iv1 pv1 pk = nth_error (pv st 7) k -> heap n run_m1 run_lay n m c ->
    (forall m' c' u, heap n run_m1 run_lay n m' c' -> mpc_matrix_mul3 E P (c 3, c 4, c 5) (c 3, c 4, c 5) (LMatrix E P k) = Ok (c' 3, c' 4, c' 5) ->
       (forall i, i < 3 \/ 6 <= i -> c' i = c i) -> Q' (mkState iv1 dv1 pv1 m' n u)) ->
    runs U (c_mpc_matrix_mul P 10 10 pk (IC 3)) (mkState iv1 dv1 pv1 m n u) Q').
  { intros k iv1 dv1 m u c pk Q' Hk Ek Hm HQ'. destruct (HL k ltac:(lia)) as (q & Eq & Rq & Aq). destruct (CL k Hk) as [LK BK].
    apply (h_mpc_matrix_mul n run_m1 U HU run_lay E P HP HE 10 10 pk (IC 3) _ c 3 (fun i => reg run_lay (3 + i)) (fun i => c (3 + i)) q (LMatrix E P k)); csimpl; auto.
    - rewrite Ek. exact Eq.
    - cbn [run_lay cnt]. lia.
    - intros i H. apply sz_words. lia.
    - intros i H. split; [apply reg_aligned; lia|]. assert (Hi3 : 3 + i < cnt run_lay) by (cbn [run_lay cnt]; lia).
      split; [rewrite (heap_len _ _ _ _ _ _ Hm _ Hi3), sz_words by lia; lia|]. split; [apply (heap_ok _ _ _ _ _ _ Hm _ Hi3)|right; auto].
    - apply run_ro, Rq.
    - intros m' c' u' Hm' Hd Hr. eapply HQ'; [exact Hm'| |].
      + unfold mpc_matrix_mul3. apply (triM_Ok _ (fun i => c' (3 + i))). intros i H. rewrite <- Hd by exact H. destruct (lt3_cases i H) as [->|[->| ->]]; reflexivity.
      + intros i H. apply Hr. lia. }
  assert (XC : forall iv1 dv1 m u c pk q l (Q' : state -> Prop), peval iv1 pv1 pk = Some q -> reads st ws q l -> aligned q -> length l = 4 * W -> heap n run_m1 run_lay n m c ->
    (forall m' c', heap n run_m1 run_lay n m' c' -> mpc_xor_constant (c 3, c 4, c 5) l W = Ok (c' 3, c' 4, c' 5) ->
       (forall i, i <> 3 -> c' i = c i) -> Q' (mkState iv1 dv1 pv1 m' n u)) ->
    runs U (c_mpc_xor_constant 10 pk (IC W)) (mkState iv1 dv1 pv1 m n u) Q').
  { intros iv1 dv1 m u c pk q l Q' Ek Rq Aq Ll Hm HQ'.
    apply (h_mpc_xor_constant n run_m1 U run_lay 10 pk (IC W) _ c 3 q l); csimpl; auto.
    - apply (N10 0). lia.
    - cbn [run_lay cnt]. lia.
    - apply run_ro, Rq.
    - apply Rq.
    - apply reg_aligned. lia.
    - intros m' r Hm' Hr. eapply HQ'; [exact Hm'| |].
      + unfold mpc_xor_constant. rewrite Hr. cbn [bind]. reflexivity.
      + intros i H. rewrite cset_neq by exact H. reflexivity. }
  assert (XK : forall iv1 dv1 m u c (Q' : state -> Prop), heap n run_m1 run_lay n m c ->
    (forall m' c', heap n run_m1 run_lay n m' c' -> mpc_xor3 (c 3, c 4, c 5) (c 6, c 7, c 8) W = Ok (c' 3, c' 4, c' 5) ->
       (forall i, i < 3 \/ 6 <= i -> c' i = c i) -> Q' (mkState iv1 dv1 pv1 m' n u)) ->
    runs U (c_mpc_xor 10 11 (IC W) (IC 3)) (mkState iv1 dv1 pv1 m n u) Q').
  { intros iv1 dv1 m u c Q' Hm HQ'.
    apply (h_mpc_xor n run_m1 U run_lay 10 11 (IC W) (IC 3) _ c 3 6); csimpl; auto.
    - cbn [run_lay cnt]. lia.
    - cbn [run_lay cnt]. lia.
    - intros i H. rewrite !sz_words by lia. split; [reflexivity|]. split; [reflexivity|]. split; apply reg_aligned; lia.
    - intros m' c' Hm' Hd Hr. eapply HQ'; [exact Hm'| |].
      + unfold mpc_xor3. apply (triM_Ok _ (fun i => c' (3 + i))). intros i H. rewrite <- Hd by exact H. destruct (lt3_cases i H) as [->|[->| ->]]; reflexivity.
      + intros i H. apply Hr. lia. }
  (* before the rounds *)
  set (ms := numSboxes P) in *. set (R := numRounds P) in *.
  apply runs_seq. apply (XC _ _ _ _ run_c0 _ qp pt); [csimpl; rewrite P4e; reflexivity|exact RP|exact Ap|exact Lp|exact H0|]. intros m1 c1 H1 F1 G1.
  apply runs_seq. apply (MMk 0 _ _ _ _ c1); [lia|csimpl; rewrite P6e; reflexivity|exact H1|]. intros m2 c2 u2 H2 F2 G2.
  apply runs_seq. apply (XK _ _ _ _ c2); [exact H2|]. intros m3 c3 H3 F3 G3.
  assert (Cz : forall i, 3 <= i < 9 -> run_c0 i = zero_words P).
  { intros i H. unfold run_c0. rewrite (proj2 (Nat.ltb_ge i 3)), (proj2 (Nat.ltb_lt i 9)) by lia. reflexivity. }
  assert (Cc : forall i, i < 3 -> run_c0 i = v_communicatedBits (V i)).
  { intros i H. unfold run_c0. rewrite (proj2 (Nat.ltb_lt i 3)) by lia. reflexivity. }
  assert (Co : forall i, i < 3 -> run_c0 (9 + i) = v_outputShare (V i)).
  { intros i H. destruct (lt3_cases i H) as [->|[->| ->]]; reflexivity. }
  rewrite !Cz in F1 by lia. rewrite !G1, !Cz in F2 by lia. rewrite !G2 in F3 by lia.
  assert (D3 : forall i, i < 3 -> c3 i = v_communicatedBits (V i)) by (intros i H; rewrite G3, G2, G1, Cc by lia; reflexivity).
  assert (O3 : forall i, i < 3 -> c3 (9 + i) = v_outputShare (V i)) by (intros i H; rewrite G3, G2, G1, Co by lia; reflexivity).
  assert (K3 : forall i, 6 <= i < 9 -> c3 i = c2 i) by (intros i H; apply G3; lia).
  unfold mpc_LowMC in HQ. rewrite guard_true in HQ by (apply Nat.leb_le; fold W; lia). cbn [tget bind] in HQ. fold W ins R in HQ.
  rewrite F1 in HQ. cbn [bind] in HQ. rewrite F2 in HQ. cbn [bind] in HQ. rewrite F3 in HQ. cbn [bind] in HQ.
  match type of HQ with context [for_loop R 1 ?f _] => set (fbody := f) in HQ end.
  assert (Hit : forall x, (ieval x (IC (R + 1)) - ieval x (IC 1) + (1 - 1)) / 1 = R) by (intros x; cbn [ieval]; rewrite Nat.div_1_r; lia).
  apply runs_seq. apply runs_for with (I := fun k z => pv z = pv1 /\ nx z = n /\ iv z 0 = 3 * ms * k /\ exists c', heap n run_m1 run_lay n (mm z) c' /\
    for_loop k 1 fbody ((c3 3, c3 4, c3 5), (c2 6, c2 7, c2 8), (v_communicatedBits (V 0), v_communicatedBits (V 1), v_communicatedBits (V 2)), 0)
      = Ok ((c' 3, c' 4, c' 5), (c' 6, c' 7, c' 8), (c' 0, c' 1, c' 2), 3 * ms * k) /\ forall i, i < 3 -> c' (9 + i) = v_outputShare (V i)).
  - cbn [pv nx iv mm]. split; [reflexivity|]. split; [reflexivity|]. split; [cbn; lia|]. exists c3. split; [exact H3|]. split; [|exact O3].
    cbn [for_loop]. rewrite (K3 6), (K3 7), (K3 8), (D3 0), (D3 1), (D3 2) by (clear; lia). rewrite Nat.mul_0_r. reflexivity.
  - rewrite Hit. intros k z Hk (Zp & Zn & Zi & c' & Hh & Hf & Ho'). destruct z as [zi zd zp zm zn zu]. cbn [pv nx iv mm] in Zp, Zn, Zi, Hh. subst zp zn.
    unfold set_iv. cbn [iv dv pv mm nx ct ieval]. replace (1 + k * 1) with (S k) by lia.
    set (iv1 := upd zi 1 (S k)). assert (I1 : iv1 1 = S k) by reflexivity. assert (I0 : iv1 0 = 3 * ms * k) by exact Zi.
    apply runs_seq. apply (MMk (S k) _ _ _ _ c'); [lia|csimpl; rewrite P6e, I1; reflexivity|exact Hh|]. intros m4 c4 u4 H4 F4 G4.
    apply runs_seq. apply (runs_mpc_substitution n run_m1 U HU P run_lay (qt 0) (qt 1) (qt 2) (T 0) (T 1) (T 2) eq_refl (Rt 0 ltac:(lia)) (Rt 1 ltac:(lia)) (Rt 2 ltac:(lia)) 10 0 2 0 _ c4 (3 * ms * k)); csimpl.
    all: try assumption; fold ms.
    { intros j Hj. rewrite sz_words by lia. fold ms in Wm. lia. }
    { intros j Hj. change (sz run_lay j) with (run_sz j). unfold run_sz. rewrite (proj2 (Nat.ltb_lt j 3) Hj). pose proof (proj2 (Hc j Hj)) as B. fold ms R in B. nia. }
    { pose proof (proj2 (HT 0 ltac:(lia))) as B. fold ms R in B. nia. }
    { pose proof (proj2 (HT 1 ltac:(lia))) as B. fold ms R in B. nia. }
    { pose proof (proj2 (HT 2 ltac:(lia))) as B. fold ms R in B. nia. }
    intros m5 c5 u5 F5 H5 G5. replace (3 * ms * k + 3 * ms) with (3 * ms * S k) in * by lia.
    set (iv2 := upd iv1 0 _). assert (I2 : iv2 1 - 1 = k) by (change (iv2 1) with (S k); lia). assert (I3 : iv2 0 = 3 * ms * S k) by reflexivity. clearbody iv2.
    destruct (HR k ltac:(lia)) as (q & Eq & Rq & Aq). destruct (CC k ltac:(lia)) as (LR & BR & _).
    apply runs_seq. apply (MMl k _ _ _ _ c5); [exact Hk|csimpl; rewrite P7e, I2; reflexivity|exact H5|]. intros m6 c6 u6 H6 F6 G6.
    apply runs_seq. apply (XC _ _ _ _ c6 _ q (RConstant E P k)); [csimpl; rewrite P8e, I2, Eq; reflexivity|exact Rq|exact Aq|exact LR|exact H6|]. intros m7 c7 H7 F7 G7.
    apply (XK _ _ _ _ c7); [exact H7|]. intros m8 c8 H8 F8 G8. cbn [pv nx iv mm].
    split; [reflexivity|]. split; [reflexivity|]. split; [exact I3|]. exists c8. split; [exact H8|]. split.
    + rewrite for_loop_snoc, Hf, bind_Ok. replace (1 + k) with (S k) by lia. unfold fbody. rewrite F4, bind_Ok.
      rewrite <- (G4 3), <- (G4 4), <- (G4 5), <- (G4 0), <- (G4 1), <- (G4 2) by (clear; lia). rewrite F5, bind_Ok. replace (S k - 1) with k by (clear; lia).
      rewrite F6, bind_Ok, F7, bind_Ok. rewrite <- (G5 6), <- (G5 7), <- (G5 8), <- (G6 6), <- (G6 7), <- (G6 8), <- (G7 6), <- (G7 7), <- (G7 8) by (clear; lia).
      rewrite F8, bind_Ok. rewrite <- (G6 0), <- (G6 1), <- (G6 2), <- (G7 0), <- (G7 1), <- (G7 2) by (clear; lia). 
      rewrite (G8 6), (G8 7), (G8 8), (G8 0), (G8 1), (G8 2) by (clear; lia). reflexivity.
    + intros i Hi3. rewrite G8, G7, G6, G5, G4 by (clear - Hi3; lia). apply Ho', Hi3.
  - rewrite Hit. intros z (Zp & Zn & Zi & c' & Hh & Hf & Ho'). destruct z as [zi zd zp zm zn zu]. cbn [pv nx iv mm] in Zp, Zn, Zi, Hh. subst zp zn.
    match type of HQ with context [for_loop R 1 fbody ?a] => set (fl := for_loop R 1 fbody a) in HQ; change (for_loop _ _ _ _) with fl in Hf; rewrite Hf in HQ; clear fl Hf end.
    cbn [bind] in HQ.
    assert (MC : forall i iv1 dv1 m u c (Q' : state -> Prop), i < 3 -> iv1 1 = i -> heap n run_m1 run_lay n m c ->
      (forall m', heap n run_m1 run_lay n m' (cset c (9 + i) (firstn sB (c (3 + i)))) -> Q' (mkState iv1 dv1 pv1 m' n u)) ->
      runs U (MemCpy (PV 3 (IV 1)) (PV 10 (IV 1)) (IC (stateSizeBytes P))) (mkState iv1 dv1 pv1 m n u) Q').
    { intros i iv1 dv1 m u c Q' Hi3 I1 Hm HQ'. fold sB. apply (h_memcpy n run_m1 U run_lay _ _ (IC sB) _ c (9 + i) (3 + i)); csimpl.
      - rewrite I1, P3e, (for3_nth qo) by exact Hi3. rewrite <- (reg_out i Hi3). reflexivity.
      - rewrite I1. apply N10, Hi3.
      - cbn [run_lay cnt]. lia.
      - cbn [run_lay cnt]. lia.
      - lia.
      - apply sz_out. lia.
      - rewrite sz_words by lia. lia.
      - lia.
      - exact Hm.
      - exact HQ'. }
    apply runs_for3. unfold set_iv. cbn [iv dv pv mm nx ct].
    eapply (MC 0 _ _ _ _ c'); [lia|reflexivity|exact Hh|]. intros m9 H9. cbn [iv dv pv mm nx ct].
    eapply (MC 1); [lia|reflexivity|exact H9|]. intros m10 H10. cbn [iv dv pv mm nx ct].
    eapply (MC 2); [lia|reflexivity|exact H10|]. intros m11 H11. cbn [iv dv pv mm nx ct].
    match type of H11 with heap _ _ _ _ _ ?x => set (c9 := x) in H11 end.
    assert (C9 : forall i, i < 9 -> c9 i = c' i) by (intros i Hi9; unfold c9; rewrite !cset_neq by lia; reflexivity).
    assert (C9o : forall i, i < 3 -> c9 (9 + i) = firstn sB (c' (3 + i))).
    { intros i Hi3. unfold c9. destruct (lt3_cases i Hi3) as [->|[->| ->]]; csets; reflexivity. }
    replace (upd _ 0 _) with (upd (iv st) 0 (3 * ms * R)) by (f_equal; symmetry; exact Zi).
    set (W' := fun i => mkView (v_inputShare (V i)) (c9 i) (c9 (9 + i))).
    apply (HQ m11 zu (W' 0, W' 1, W' 2)).
    + apply (triM_Ok _ W'). intros i Hi3. fold sB.
      assert (E1 : tget (c' 3, c' 4, c' 5) i = c' (3 + i)) by (destruct (lt3_cases i Hi3) as [->|[->| ->]]; reflexivity).
      assert (E2 : tget (c' 0, c' 1, c' 2) i = c' i) by (destruct (lt3_cases i Hi3) as [->|[->| ->]]; reflexivity).
      assert (E3 : match i with 0 => V 0 | 1 => V 1 | S (S _) => V 2 end = V i) by (destruct (lt3_cases i Hi3) as [->|[->| ->]]; reflexivity).
      assert (Hi12 : 3 + i < cnt run_lay) by (cbn [run_lay cnt]; clear - Hi3; lia).
      pose proof (heap_len _ _ _ _ _ _ Hh (3 + i) Hi12) as Ll. rewrite sz_words in Ll by (clear - Hi3; lia).
      assert (Ls : sB <= length (c' (3 + i))) by (rewrite Ll; clear - NB W2; lia).
      rewrite E1, E2, E3. rewrite slice0_ok by exact Ls. rewrite bind_Ok. rewrite blit0_all by (rewrite firstn_length_le by exact Ls; symmetry; apply Hou, Hi3).
      rewrite bind_Ok. unfold W'. rewrite C9o, C9 by (clear - Hi3; lia). reflexivity.
    + intros j Hj. assert (E1 : tget (W' 0, W' 1, W' 2) j = W' j) by (destruct (lt3_cases j Hj) as [->|[->| ->]]; reflexivity).
      rewrite E1. unfold W'. cbn [v_communicatedBits v_outputShare v_inputShare].
      assert (Hj1 : j < cnt run_lay) by (cbn [run_lay cnt]; clear - Hj; lia). assert (Hj2 : 9 + j < cnt run_lay) by (cbn [run_lay cnt]; clear - Hj; lia).
      pose proof (heap_pts _ _ _ _ _ _ H11 j Hj1) as A1. pose proof (heap_pts _ _ _ _ _ _ H11 (9 + j) Hj2) as A2.
      change (reg run_lay j) with (run_reg j) in A1. change (reg run_lay (9 + j)) with (run_reg (9 + j)) in A2. rewrite reg_lo in A1 by exact Hj. rewrite reg_out in A2 by exact Hj.
      split; [exact A1|]. split; [exact A2|reflexivity].
    + apply run_chg. apply (heap_chg _ _ _ _ _ _ H11).
    + apply (run_slab m11 c9 H11).
Qed.
End S.
