(** One round of ZKB++ verification on memory with pointers: the result. *)

From Coq Require Import List NArith Arith Bool Lia ZifyBool ZifyNat ZifyN.
From Verif Require Import Base Params Env Spec LowMC Picnic1 MiniC CodeLowMC CodeZkb CodeKeccak CodeP3 CodeSpec HashSpec CodeKeccakSpec CodeZkbSpec CodeHashUses CodeVerRound CodeVerRoundSpec
  ApiSpec BaseFacts ParamFacts LowMCFacts SigSpec ZkbMpc Zkb ZkbRound ZkbSign HashProofs
  MiniCFacts CodeRules CodeLowMCProofs CodeHeap CodeZkbMpc CodeZkbRun CodeHashUsesTop CodeSignProofs CodeSignThm CodeVerRoundProofs.
Import ListNotations.
Local Open Scope c_scope.

Lemma get_param_set_digest p P : get_param_set p = Some P -> 0 < digestSizeBytes P.
Proof.
  intros H. apply Nat.ltb_lt. revert p P H. apply (params_forall (fun _ P => 0 <? digestSizeBytes P)). vm_compute. reflexivity.
Qed.

Section T.
Variables (U : nat -> nat -> bytes) (HU : locals_ok U) (E : env) (P : paramset) (HP1 : wfP1 P) (HS : small P) (HD : 0 < digestSizeBytes P) (HE0 : env_bytes_ok E) (HC : constants_ok E P).
Variables (st : state) (q : nat -> ptr) (ch : nat) (pr : proof) (salt pub pt : bytes) (i : nat).
Hypothesis HM : round_call P E st q ch pr salt pub pt.
Notation Es := (with_shake E).
Let HE : env_bytes_ok Es := shake_env E HE0.
Let vl : layout := mkLayout (ver_count P) q (ver_size P).

Lemma round_heap : exists c, heap (nx st) (mm st) vl (nx st) (mm st) c /\ forall k, 3 <= k < 9 -> c k = zeros (sz vl k).
Proof.
  assert (K13 : 13 <= ver_count P) by (unfold ver_count; destruct (is_UR _); lia). exists (fun i => rdmem (mm st) (q i) (ver_size P i)).
  assert (X : forall i, i < ver_count P -> exists l, holds st (q i) l /\ length l = ver_size P i /\ rdmem (mm st) (q i) (ver_size P i) = l).
  { intros k Hi. destruct (rc_room _ _ _ _ _ _ _ _ _ HM k Hi) as (l & A & B). exists l. split; [exact A|]. split; [exact B|].
    rewrite (rdmem_pts (nx st) _ _ l) by (apply A || lia). rewrite <- B. apply firstn_all. }
  split.
  - split; [split| | | |]; cbn [vl cnt reg sz].
    + auto.
    + intros k Hi. destruct (X k Hi) as (l & [[A _] _] & _). exact A.
    + intros k j Hi Hj Hne. apply (rc_apart _ _ _ _ _ _ _ _ _ HM k j (q k) (ver_size P k) (q j) (ver_size P j)); [exact (nth_map_seq _ _ k Hi)|exact (nth_map_seq _ _ j Hj)|exact Hne].
    + intros k Hi. destruct (X k Hi) as (l & [A _] & _ & ->). exact A.
    + intros k Hi. destruct (X k Hi) as (l & _ & A & ->). exact A.
    + intros k Hi. destruct (X k Hi) as (l & [_ A] & _ & ->). exact A.
    + apply chg_refl.
  - intros k Hk. pose proof (rc_calloc _ _ _ _ _ _ _ _ _ HM k Hk) as [A _]. cbn [vl sz].
    rewrite (rdmem_pts (nx st) _ _ _ _ A) by (rewrite length_zeros; auto). rewrite <- (length_zeros (ver_size P k)) at 1. apply firstn_all.
Qed.

Let o : opening := mkOpening (p_seed1 pr) (p_seed2 pr) (p_inputShare pr) (p_communicatedBits pr) (p_view3Commitment pr) (firstn (G_len P (prv ch)) (p_view3UnruhG pr)).

Lemma runs_verify_round (Q : state -> Prop) :
  (forall iv' m' u' c', (forall x, x <> 0 -> x <> 2 -> iv' x = iv st x) -> heap (nx st) (mm st) vl (nx st) m' c' -> vdone E P ch pr salt pub pt i c' ->
     Q (mkState iv' (dv st) (pv st) m' (nx st) u')) ->
  runs U (c_verify_round P i) st Q.
Proof.
  intros HQ. destruct round_heap as (c & Hh & Hz). destruct (rc_challenge _ _ _ _ _ _ _ _ _ HM) as [I1 Hch].
  destruct (rc_rc _ _ _ _ _ _ _ _ _ HM) as (qr & E9 & Rr & Ar). destruct (rc_seeds _ _ _ _ _ _ _ _ _ HM) as (qd & E10 & Rd).
  assert (X : runs U (c_verify_challenge P i ch) st Q).
  { destruct st as [si sd sp sm sn sc] eqn:Est. cbn [iv dv pv mm nx ct] in *. rewrite <- Est in HM.
    pose proof (h_verify_challenge U HU E P HP1 HS HE0 HC st q ch pr salt pub pt HM qr) as L. rewrite Est in L. cbn [iv dv pv mm nx ct] in L.
    apply (L (vreads_ro P (mkState si sd sp sm sn sc) q _ _ Rr) Ar E9 qd E10 Rd i si sd sm sc c Q HD I1 Hh Hz). exact HQ. }
  unfold c_verify_round. eapply runs_if; [cbn [ceval ieval]; rewrite I1; reflexivity|]. destruct (Nat.eqb_spec ch 0) as [->|N0]; [exact X|].
  eapply runs_if; [cbn [ceval ieval]; rewrite I1; reflexivity|]. destruct (Nat.eqb_spec ch 1) as [->|N1]; [exact X|]. assert (ch = 2) as -> by lia. exact X.
Qed.

Lemma opening_facts : opening_wf P ch o /\ proof_is P ch pr o.
Proof.
  destruct (rc_seeds _ _ _ _ _ _ _ _ _ HM) as (qd & _ & Rd). destruct (Rd 0 ltac:(lia)) as [_ L1]. destruct (Rd 1 ltac:(lia)) as [_ L2]. cbn [proof_seed Nat.eqb] in L1, L2.
  destruct (rc_input _ _ _ _ _ _ _ _ _ HM) as [(qi & _ & _ & Bi & _) Li]. destruct (rc_comm _ _ _ _ _ _ _ _ _ HM) as [(qc & _ & _ & Bc & _) Lc]. destruct (rc_commit _ _ _ _ _ _ _ _ _ HM) as [_ L3].
  pose proof (rc_G _ _ _ _ _ _ _ _ _ HM) as Lg. split.
  - unfold opening_wf, o. cbn [o_seed1 o_seed2 o_in o_comm o_c3 o_g3]. split; [exact L1|]. split; [exact L2|]. split; [exact Lc|]. split; [exact Bc|]. split; [exact L3|]. split; [|intros _; split; assumption].
    intros Hu. destruct (Lg Hu) as [_ Lg']. rewrite firstn_length, Lg'. rewrite (w1_Gw P HP1 Hu). unfold G_len. destruct (_ =? 2); lia.
  - unfold proof_is, o. cbn [o_seed1 o_seed2 o_in o_comm o_c3 o_g3]. repeat (split; [reflexivity|]). split; [|split; [exact Li|reflexivity]]. intros Hu. destruct (Lg Hu) as [_ Lg']. auto.
Qed.

Lemma opened0 : opened ch 0 = ch.
Proof. destruct (rc_challenge _ _ _ _ _ _ _ _ _ HM) as [_ Hch]. unfold opened. rewrite Nat.add_0_r. apply Nat.mod_small, Hch. Qed.
Lemma same_views : vr_views Es P ch o salt i pt = VV E P ch pr salt pt i.
Proof. unfold vr_views, VV. rewrite opened0. reflexivity. Qed.

Lemma by_party_cases {A} (a b c : A) : by_party ch a b c (opened ch 0) = a /\ by_party ch a b c (opened ch 1) = b /\ by_party ch a b c (opened ch 2) = c.
Proof. destruct (rc_challenge _ _ _ _ _ _ _ _ _ HM) as [_ Hch]. destruct (lt3_cases ch Hch) as [->|[->| ->]]; repeat split; reflexivity. Qed.
Lemma party_opened j : j < 3 -> exists e, e < 3 /\ j = opened ch e.
Proof.
  intros Hj. destruct (rc_challenge _ _ _ _ _ _ _ _ _ HM) as [_ Hch]. exists ((j + 3 - ch) mod 3). split; [apply Nat.mod_upper_bound; lia|].
  destruct (lt3_cases ch Hch) as [->|[->| ->]], (lt3_cases j Hj) as [->|[->| ->]]; reflexivity.
Qed.

Lemma done_leaves m' c' u' iv' vo cm gs : heap (nx st) (mm st) vl (nx st) m' c' -> vdone E P ch pr salt pub pt i c' ->
  (forall j, j < 3 -> tget vo j = vr_out Es P ch o salt i pub pt j) ->
  (forall j, j < 3 -> tget cm j = vr_commit Es P ch o salt i pt j) ->
  (is_UR (transf P) = true -> forall j, j < 3 -> G_len P j <= length (tget gs j) /\ firstn (G_len P j) (tget gs j) = vr_g Es P ch o salt i pt j) ->
  round_leaves P (mkState iv' (dv st) (pv st) m' (nx st) u') q ch vo cm gs.
Proof.
  intros H (D7 & D8 & D12 & Dc & Dc2 & Dg) Ho Hcm Hg. destruct (rc_challenge _ _ _ _ _ _ _ _ _ HM) as [_ Hch]. pose proof opened0 as O0.
  unfold vr_out in Ho. unfold vr_commit in Hcm. unfold vr_g in Hg. rewrite same_views in Ho, Hcm, Hg. unfold VVe in Dc, Dg.
  set (V := VV E P ch pr salt pt i) in *. destruct V as [w1 w2]. cbn [fst snd] in *.
  assert (X : forall k, k < ver_count P -> pts (nx st) m' (q k) (c' k)) by (intros k Hk; apply (heap_pts _ _ _ _ _ _ H k Hk)).
  assert (K13 : 13 <= ver_count P) by (unfold ver_count; destruct (is_UR _); lia).
  assert (Yl : forall e, opened ch e < 3) by (intros e; unfold opened; apply Nat.mod_upper_bound; lia).
  unfold round_leaves. cbn [nx mm]. change ((ch + 1) mod 3) with (opened ch 1). change ((ch + 2) mod 3) with (opened ch 2).
  rewrite <- O0 at 1. rewrite !Ho by apply Yl.
  match goal with |- context [by_party ch ?a ?b ?c _] => destruct (by_party_cases a b c) as (Z0 & Z1 & Z2) end. rewrite Z0, Z1, Z2. rewrite <- D12, <- D7, <- D8.
  split; [apply X; lia|]. split; [apply X; lia|]. split; [apply X; lia|]. split.
  - intros j Hj. rewrite (Hcm j Hj). destruct (party_opened j Hj) as (e & He & ->).
    match goal with |- context [by_party ch ?a ?b ?c _] => destruct (by_party_cases a b c) as (Y0 & Y1 & Y2) end.
    pose proof (Yl e). pose proof (Dc 0 ltac:(lia)) as Dc0. pose proof (Dc 1 ltac:(lia)) as Dc1. cbn [Nat.eqb proof_seed] in Dc0, Dc1.
    destruct (lt3_cases e He) as [->|[->| ->]].
    + rewrite Y0. cbn [o o_seed1]. rewrite <- Dc0. apply X. lia.
    + rewrite Y1. cbn [o o_seed2]. rewrite <- Dc1. apply X. lia.
    + rewrite Y2. cbn [o o_c3]. rewrite <- Dc2. apply X. lia.
  - intros Hu j Hj. destruct (Hg Hu j Hj) as [_ Hg']. change (G_bytes P j) with (G_len P j). refine (eq_ind_r (fun l => pts (nx st) m' (q (13 + j)) l) _ Hg'). destruct (Dg Hu) as [Dg1 Dg2].
    assert (K16 : 16 = ver_count P) by (unfold ver_count; rewrite Hu; reflexivity). destruct (party_opened j Hj) as (e & He & ->).
    match goal with |- context [by_party ch ?a ?b ?c _] => destruct (by_party_cases a b c) as (Y0 & Y1 & Y2) end. pose proof (Yl e).
    pose proof (Dg1 0 ltac:(lia)) as Dg10. pose proof (Dg1 1 ltac:(lia)) as Dg11. cbn [Nat.eqb proof_seed] in Dg10, Dg11.
    destruct (lt3_cases e He) as [->|[->| ->]].
    + rewrite Y0. cbn [o o_seed1]. rewrite O0 in Dg10 at 3. rewrite <- Dg10. apply pts_firstn, X. lia.
    + rewrite Y1. cbn [o o_seed2]. change (nxt ch) with (opened ch 1). rewrite <- Dg11. apply pts_firstn, X. lia.
    + rewrite Y2. cbn [o o_g3]. change (prv ch) with (opened ch 2). rewrite <- Dg2. apply pts_firstn, X. lia.
Qed.
End T.

Lemma verify_round_code U E p P st q ch pr chal salt pub pt i :
  locals_ok U -> get_param_set p = Some P -> is_picnic3 p = false -> env_bytes_ok E -> constants_ok E P ->
  round_call P E st q ch pr salt pub pt -> getChallenge chal i = Ok ch ->
  exists st' t vo cm gs, run U (c_verify_round P i) st = Some (st', t) /\
    chg (nx st) (mm st) (mm st') (round_writes P q) /\
    (forall x, x <> 0 -> x <> 2 -> iv st' x = iv st x) /\ dv st' = dv st /\ pv st' = pv st /\ nx st' = nx st /\
    verify_round (with_shake E) P i pr chal salt pub pt = Ok (vo, cm, gs) /\ round_leaves P st' q ch vo cm gs.
Proof.
  intros HU HP Hp HE HC HM Hc. pose proof (get_param_set_wfP1 p P HP Hp) as HP1. pose proof (get_param_set_small p P HP) as HS. pose proof (get_param_set_digest p P HP) as HD.
  destruct (rc_challenge _ _ _ _ _ _ _ _ _ HM) as [_ Hch]. destruct (rc_pt _ _ _ _ _ _ _ _ _ HM) as (qp & _ & (_ & Bp & _) & _ & Lp). destruct (rc_pub _ _ _ _ _ _ _ _ _ HM) as (qb & _ & _ & _ & Lb).
  destruct (opening_facts E P HP1 HD st q ch pr salt pub pt i HM) as [Ow Oi].
  pose proof (verify_round_spec (with_shake E) P HP1 (shake_env E HE) HC i pr _ chal ch salt pub pt Hc Hch Ow Oi (proj2 (rc_salt _ _ _ _ _ _ _ _ _ HM)) ltac:(lia) Bp Lb) as VS.
  destruct (verify_round (with_shake E) P i pr chal salt pub pt) as [[[vo cm] gs]| | |]; cbn [ok] in VS; try contradiction. destruct VS as (V1 & V2 & V3).
  assert (RR : runs U (c_verify_round P i) st (fun y => chg (nx st) (mm st) (mm y) (round_writes P q) /\
    (forall x, x <> 0 -> x <> 2 -> iv y x = iv st x) /\ dv y = dv st /\ pv y = pv st /\ nx y = nx st /\ round_leaves P y q ch vo cm gs)).
  { apply (runs_verify_round U HU E P HP1 HS HD HE HC st q ch pr salt pub pt i HM). intros iv' m' u' c' J H D. cbn [iv dv pv mm nx].
    split; [exact (heap_chg _ _ _ _ _ _ H)|]. split; [exact J|]. split; [reflexivity|]. split; [reflexivity|]. split; [reflexivity|].
    apply (done_leaves E P HD st q ch pr salt pub pt i HM m' c' u' iv' vo cm gs H D V1 V2 V3). }
  unfold runs in RR. destruct (run U _ st) as [[y t]|]; [|contradiction]. exists y, t, vo, cm, gs. split; [reflexivity|]. destruct RR as (A & B & C & D & F & G). repeat (split; [assumption|]). split; [reflexivity|exact G].
Qed.
