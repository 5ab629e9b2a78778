(** The rounds of ZKB++ verification on memory with pointers, one after the other. *)

From Coq Require Import List NArith Arith Bool Lia ZifyBool ZifyNat ZifyN.
From Verif Require Import Base Params Env Spec LowMC Picnic1 MiniC CodeLowMC CodeZkb CodeKeccak CodeP3 CodeSpec HashSpec CodeKeccakSpec CodeZkbSpec CodeHashUses CodeSign CodeVerRound CodeVerRoundSpec CodeVerAll CodeVerAllSpec
  ApiSpec BaseFacts ParamFacts LowMCFacts SigSpec ZkbMpc Zkb ZkbRound ZkbSign ZkbChal HashProofs
  MiniCFacts CodeRules CodeLowMCProofs CodeHeap CodeZkbMpc CodeZkbRun CodeP3Proofs CodeP3Sim CodeHashUsesTop CodeSignRules CodeSignProofs CodeSignThm CodeVerRoundProofs CodeVerRoundThm CodeH3Proofs CodeVerifyProofs ApiFacts.
Import ListNotations.
Local Open Scope c_scope.

Section Place.
Variable P : paramset.
Let T := numMPCRounds P.
Notation per := (per_round P).
Lemma per_pos : 10 <= per.
Proof. unfold per_round, ver_count. destruct (is_UR _); lia. Qed.
Lemma per_count : ver_count P = 3 + per.
Proof. unfold per_round, ver_count. destruct (is_UR _); lia. Qed.
Lemma place_lt x k : x < ver_count P -> k < T -> place P x k < all_count P.
Proof. intros Hx Hk. pose proof per_count. unfold place, all_count. fold T. destruct (Nat.ltb_spec x 3); [lia|]. assert (per * k + per <= per * T) by nia. lia. Qed.
Lemma place_part x k : 3 <= x < ver_count P -> (place P x k - 3) / per = k /\ 3 + (place P x k - 3) mod per = x /\ 3 <= place P x k.
Proof.
  intros Hx. pose proof per_count. pose proof per_pos. unfold place. rewrite (proj2 (Nat.ltb_ge x 3)) by lia.
  replace (3 + per * k + (x - 3) - 3) with (x - 3 + k * per) by lia. rewrite Nat.div_add, Nat.mod_add by lia. rewrite Nat.div_small, Nat.mod_small by lia. lia.
Qed.
Lemma place_size x k : x < ver_count P -> all_size P (place P x k) = ver_size P x.
Proof.
  intros Hx. unfold all_size. destruct (Nat.lt_ge_cases x 3) as [L|L].
  - unfold place. rewrite (proj2 (Nat.ltb_lt x 3)) by lia. rewrite (proj2 (Nat.ltb_lt x 3)) by lia. reflexivity.
  - destruct (place_part x k ltac:(lia)) as (A & B & C). rewrite (proj2 (Nat.ltb_ge _ 3)) by lia. rewrite B. reflexivity.
Qed.
Lemma place_low x k : x < 3 -> place P x k = x.
Proof. intros H. unfold place. rewrite (proj2 (Nat.ltb_lt x 3)) by lia. reflexivity. Qed.
Lemma place_inj x x' k k' : x < ver_count P -> x' < ver_count P -> place P x k = place P x' k' -> x = x' /\ (x < 3 \/ k = k').
Proof.
  intros Hx Hx' Eq. destruct (Nat.lt_ge_cases x 3) as [L|L], (Nat.lt_ge_cases x' 3) as [L'|L'].
  - rewrite !place_low in Eq by lia. auto.
  - rewrite place_low in Eq by lia. destruct (place_part x' k' ltac:(lia)) as (_ & _ & C). lia.
  - rewrite (place_low x') in Eq by lia. destruct (place_part x k ltac:(lia)) as (_ & _ & C). lia.
  - destruct (place_part x k ltac:(lia)) as (A & B & _), (place_part x' k' ltac:(lia)) as (A' & B' & _). rewrite Eq in A, B. split; [congruence|right; congruence].
Qed.
Lemma place_inv j : j < all_count P -> j < 3 \/ exists x k, 3 <= x < ver_count P /\ k < T /\ j = place P x k.
Proof.
  intros Hj. pose proof per_count. pose proof per_pos. destruct (Nat.lt_ge_cases j 3) as [L|L]; [auto|right]. exists (3 + (j - 3) mod per), ((j - 3) / per).
  pose proof (Nat.mod_upper_bound (j - 3) per ltac:(lia)). split; [lia|]. split; [apply Nat.div_lt_upper_bound; [lia|]; unfold all_count in Hj; fold T in Hj; lia|].
  unfold place. rewrite (proj2 (Nat.ltb_ge _ 3)) by lia. pose proof (Nat.div_mod (j - 3) per ltac:(lia)). lia.
Qed.
(** Contents after round [i] has left [c'] in its buffers. *)
Definition merge (i : nat) (c c' : nat -> bytes) (j : nat) : bytes := if j <? 3 then c' j else if (j - 3) / per =? i then c' (3 + (j - 3) mod per) else c j.
Lemma merge_in i c c' x : x < ver_count P -> merge i c c' (place P x i) = c' x.
Proof.
  intros Hx. unfold merge. destruct (Nat.lt_ge_cases x 3) as [L|L].
  - rewrite place_low by lia. rewrite (proj2 (Nat.ltb_lt x 3)) by lia. reflexivity.
  - destruct (place_part x i ltac:(lia)) as (A & B & C). rewrite (proj2 (Nat.ltb_ge _ 3)) by lia. rewrite A, Nat.eqb_refl, B. reflexivity.
Qed.
Lemma merge_out i c c' x k : 3 <= x < ver_count P -> k <> i -> merge i c c' (place P x k) = c (place P x k).
Proof. intros Hx Hk. unfold merge. destruct (place_part x k ltac:(lia)) as (A & B & C). rewrite (proj2 (Nat.ltb_ge _ 3)) by lia. rewrite A. rewrite (proj2 (Nat.eqb_neq k i) Hk). reflexivity. Qed.
End Place.

(** What a round leaves in its buffers. *)
Definition left_by (P : paramset) (c : nat -> bytes) (ch : nat) (vo cm gs : tri bytes) : Prop :=
  c 7 = tget vo ch /\ c 8 = tget vo ((ch + 1) mod 3) /\ c 12 = tget vo ((ch + 2) mod 3) /\ (forall j, j < 3 -> c (9 + j) = tget cm j) /\
  (is_UR (transf P) = true -> forall j, j < 3 -> G_len P j <= length (tget gs j) /\ firstn (G_len P j) (c (13 + j)) = firstn (G_len P j) (tget gs j)).

Lemma done_left U E P (HU : locals_ok U) (HP1 : wfP1 P) (HD : 0 < digestSizeBytes P) (HE : env_bytes_ok E) (HC : constants_ok E P) st q ch pr salt pub pt i chal c :
  round_call P E st q ch pr salt pub pt -> vdone E P ch pr salt pub pt i c -> getChallenge chal i = Ok ch ->
  exists vo cm gs, verify_round (with_shake E) P i pr chal salt pub pt = Ok (vo, cm, gs) /\ left_by P c ch vo cm gs.
Proof.
  intros HM D Hc. destruct (rc_challenge _ _ _ _ _ _ _ _ _ HM) as [_ Hch]. destruct (rc_pt _ _ _ _ _ _ _ _ _ HM) as (qp & _ & (_ & Bp & _) & _ & Lp). destruct (rc_pub _ _ _ _ _ _ _ _ _ HM) as (qb & _ & _ & _ & Lb).
  destruct (opening_facts E P HP1 HD st q ch pr salt pub pt i HM) as [Ow Oi].
  pose proof (verify_round_spec (with_shake E) P HP1 (shake_env E HE) HC i pr _ chal ch salt pub pt Hc Hch Ow Oi (proj2 (rc_salt _ _ _ _ _ _ _ _ _ HM)) ltac:(lia) Bp Lb) as VS.
  destruct (verify_round (with_shake E) P i pr chal salt pub pt) as [[[vo cm] gs]| | |]; cbn [ok] in VS; try contradiction. destruct VS as (Ho & Hcm & Hg).
  exists vo, cm, gs. split; [reflexivity|]. destruct D as (D7 & D8 & D12 & Dc & Dc2 & Dg). pose proof (opened0 E P st q ch pr salt pub pt HM) as O0. pose proof (same_views E P st q ch pr salt pub pt i HM) as SV.
  set (o := mkOpening _ _ _ _ _ _) in *.
  unfold vr_out in Ho. unfold vr_commit in Hcm. unfold vr_g in Hg. rewrite SV in Ho, Hcm, Hg. unfold VVe in Dc, Dg.
  set (V := VV E P ch pr salt pt i) in *. destruct V as [w1 w2]. cbn [fst snd] in *.
  assert (Yl : forall e, opened ch e < 3) by (intros e; unfold opened; apply Nat.mod_upper_bound; lia).
  unfold left_by. change ((ch + 1) mod 3) with (opened ch 1). change ((ch + 2) mod 3) with (opened ch 2).
  rewrite <- O0 at 1. rewrite !Ho by apply Yl.
  match goal with |- context [by_party ch ?a ?b ?c _] => destruct (by_party_cases E P st q ch pr salt pub pt HM a b c) as (Z0 & Z1 & Z2) end. rewrite Z0, Z1, Z2.
  split; [exact D7|]. split; [exact D8|]. split; [exact D12|]. split.
  - intros j Hj. rewrite (Hcm j Hj). destruct (party_opened E P HD st q ch pr salt pub pt HM j Hj) as (e & He & ->).
    match goal with |- context [by_party ch ?a ?b ?c _] => destruct (by_party_cases E P st q ch pr salt pub pt HM a b c) as (Y0 & Y1 & Y2) end.
    pose proof (Dc 0 ltac:(lia)) as Dc0. pose proof (Dc 1 ltac:(lia)) as Dc1. cbn [Nat.eqb proof_seed] in Dc0, Dc1.
    destruct (lt3_cases e He) as [->|[->| ->]].
    + rewrite Y0. exact Dc0.
    + rewrite Y1. exact Dc1.
    + rewrite Y2. exact Dc2.
  - intros Hu j Hj. destruct (Hg Hu j Hj) as [Hl Hg']. split; [exact Hl|]. refine (eq_ind_r (fun l => firstn (G_len P j) (c (13 + j)) = l) _ Hg'). destruct (Dg Hu) as [Dg1 Dg2].
    destruct (party_opened E P HD st q ch pr salt pub pt HM j Hj) as (e & He & ->).
    match goal with |- context [by_party ch ?a ?b ?c _] => destruct (by_party_cases E P st q ch pr salt pub pt HM a b c) as (Y0 & Y1 & Y2) end.
    pose proof (Dg1 0 ltac:(lia)) as Dg10. pose proof (Dg1 1 ltac:(lia)) as Dg11. cbn [Nat.eqb proof_seed] in Dg10, Dg11.
    destruct (lt3_cases e He) as [->|[->| ->]].
    + rewrite Y0. rewrite O0 in Dg10 at 3. exact Dg10.
    + rewrite Y1. exact Dg11.
    + rewrite Y2. exact Dg2.
Qed.

Section S.
Variables (U : nat -> nat -> bytes) (HU : locals_ok U) (E : env) (P : paramset) (HP1 : wfP1 P) (HS : small P) (HD : 0 < digestSizeBytes P) (HE0 : env_bytes_ok E) (HC : constants_ok E P).
Variables (st : state) (q : nat -> ptr) (sg : signature) (pub pt msg : bytes).
Hypothesis HM : verify_call P E st q sg pub pt msg.
Hypothesis HA : stateSizeBytes P mod 4 = 0.
Notation Es := (with_shake E).
Let T := numMPCRounds P.
Let n0 := nx st.
Let m0 := mm st.
Let vl : layout := mkLayout (all_count P) q (all_size P).
Notation hp := (heap n0 m0 vl n0).
Notation cb := (s_challengeBits sg).
Notation salt := (s_salt sg).

Lemma all_ro p l : reads st (verify_writes P q) p l -> CodeHeap.ro n0 m0 vl p l.
Proof. intros (A & _ & B). split; [exact A|]. intros k Hk. apply B. unfold verify_writes. apply in_map_iff. exists k. split; [reflexivity|]. apply in_seq. cbn [vl cnt] in Hk. lia. Qed.

Lemma all_heap : exists c, hp (mm st) c /\ forall x k, 3 <= x < 9 -> k < T -> c (place P x k) = zeros (ver_size P x).
Proof.
  exists (fun j => rdmem (mm st) (q j) (all_size P j)).
  assert (X : forall j, j < all_count P -> exists l, CodeZkbSpec.holds st (q j) l /\ length l = all_size P j /\ rdmem (mm st) (q j) (all_size P j) = l).
  { intros j Hj. destruct (vw_room _ _ _ _ _ _ _ _ HM j Hj) as (l & A & B). exists l. split; [exact A|]. split; [exact B|].
    rewrite (rdmem_pts (nx st) _ _ l) by (apply A || lia). rewrite <- B. apply firstn_all. }
  split.
  - split; [split| | | |]; cbn [vl cnt reg sz].
    + auto.
    + intros j Hj. destruct (X j Hj) as (l & [[A _] _] & _). exact A.
    + intros k j Hi Hj Hne. apply (vw_apart _ _ _ _ _ _ _ _ HM k j (q k) (all_size P k) (q j) (all_size P j)); [exact (nth_map_seq _ _ k Hi)|exact (nth_map_seq _ _ j Hj)|exact Hne].
    + intros j Hj. destruct (X j Hj) as (l & [A _] & _ & ->). exact A.
    + intros j Hj. destruct (X j Hj) as (l & _ & A & ->). exact A.
    + intros j Hj. destruct (X j Hj) as (l & [_ A] & _ & ->). exact A.
    + apply chg_refl.
  - intros x k Hx Hk. pose proof (vw_calloc _ _ _ _ _ _ _ _ HM x k Hx Hk) as [A _]. pose proof (per_count P). pose proof (per_pos P). rewrite place_size by lia.
    rewrite (rdmem_pts (nx st) _ _ _ _ A) by (rewrite length_zeros; auto). rewrite <- (length_zeros (ver_size P x)) at 1. apply firstn_all.
Qed.

(** One round inside. *)
Section Round.
Variables (i : nat) (Hi : i < T) (ch : nat) (Hch : ch < 3) (pr : proof) (Hpr : nth_error (s_proofs sg) i = Some pr).
Notation pl x := (place P x i).
Let qi : nat -> ptr := fun x => q (pl x).

Lemma round_reads_in m u ps c p l : hp m c -> reads st (verify_writes P q) p l -> reads (mkState (args 0 [0; ch]) (args 0%N []) (args [] ps) m n0 u) (round_writes P qi) p l.
Proof.
  intros H R. split; [apply (heap_ro _ _ _ _ _ _ _ _ H (all_ro _ _ R))|]. split; [apply R|]. intros p' k Hp. unfold round_writes in Hp. apply in_map_iff in Hp. destruct Hp as (x & Eq & Hx). apply in_seq in Hx.
  injection Eq as <- <-. rewrite <- (place_size P x i) by lia. unfold qi. apply R. unfold verify_writes. apply in_map_iff. exists (pl x). split; [reflexivity|]. apply in_seq. split; [lia|]. apply place_lt; [lia|exact Hi].
Qed.

(** The arguments of the call. *)
Definition given_args (ps : list (list ptr)) : Prop := exists s1 s2 pin pc p3 pg,
  ps = [[q 1; q 2]; [qi 3; qi 4]; [qi 5; qi 6]; [qi 7; qi 8]; pv st 4; [q 0]; pv st 6; pv st 7; pv st 8; pv st 9; [s1; s2]; pv st 11; [pin]; pv st 13; [qi 9; qi 10; qi 11];
        (if is_UR (transf P) then [qi 13; qi 14; qi 15] else []); [pc]; [p3]; (if is_UR (transf P) then [pg] else []); [qi 12]] /\
  reads st (verify_writes P q) s1 (p_seed1 pr) /\ reads st (verify_writes P q) s2 (p_seed2 pr) /\ reads st (verify_writes P q) pin (p_inputShare pr) /\
  reads st (verify_writes P q) pc (p_communicatedBits pr) /\ reads st (verify_writes P q) p3 (p_view3Commitment pr) /\ (is_UR (transf P) = true -> reads st (verify_writes P q) pg (p_view3UnruhG pr)).

Lemma proof_facts : length (p_seed1 pr) = seedSizeBytes P /\ length (p_seed2 pr) = seedSizeBytes P /\ length (p_inputShare pr) = stateSizeBytes P /\ length (p_communicatedBits pr) = andSizeBytes P /\
  length (p_view3Commitment pr) = digestSizeBytes P /\ (is_UR (transf P) = true -> length (p_view3UnruhG pr) = UnruhGWithInputBytes P).
Proof.
  destruct (vw_proofs _ _ _ _ _ _ _ _ HM i Hi) as (pr' & Hpr' & S & _ & A & _ & B & _ & C & D). rewrite Hpr in Hpr'. injection Hpr' as <-.
  destruct (S 0 ltac:(lia)) as [_ S0]. destruct (S 1 ltac:(lia)) as [_ S1]. repeat (split; [assumption|]). intros Hu. apply (D Hu).
Qed.

Lemma args_eval f h : (forall a, a <> 21 -> h a = pv st a) -> exists ps, given_args ps /\
  pargevals f h [PA 0; row 1 2 i; row 2 2 i; row 3 2 i; PA 4; PA 5; PA 6; PA 7; PA 8; PA 9; row 10 2 i; PA 11; row 12 1 i; PA 13; row 14 3 i;
     (if is_UR (transf P) then row 15 3 i else PL []); row 16 1 i; row 17 1 i; (if is_UR (transf P) then row 18 1 i else PL []);
     PL [PAdd (P0 19) (IC (i * stateSizeBytes P))]] = Some ps.
Proof.
  intros Hh. destruct (vw_proofs _ _ _ _ _ _ _ _ HM i Hi) as (pr' & Hpr' & S & (pin & N12 & R12) & _ & (pc & N16 & R16) & _ & (p3 & N17 & R17) & _ & D). rewrite Hpr in Hpr'. injection Hpr' as <-.
  destruct (S 0 ltac:(lia)) as [(s1 & Ns1 & Rs1) _]. destruct (S 1 ltac:(lia)) as [(s2 & Ns2 & Rs2) _]. destruct (vw_slab _ _ _ _ _ _ _ _ HM) as (s & E19 & _ & Hs). destruct (vw_shared _ _ _ _ _ _ _ _ HM) as [E0 E5].
  destruct (vw_bufs _ _ _ _ _ _ _ _ HM i Hi) as [B2 B3]. destruct (B2 0 ltac:(lia)) as (B10 & B20 & B30). destruct (B2 1 ltac:(lia)) as (B11 & B21 & B31).
  destruct (B3 0 ltac:(lia)) as [B140 B150]. destruct (B3 1 ltac:(lia)) as [B141 B151]. destruct (B3 2 ltac:(lia)) as [B142 B152]. unfold buffer in *. specialize (Hs i Hi).
  assert (X1 : forall f a, peval f h (PV a (IC (1 * i + 0))) = nth_error (h a) i) by (intros f' a; cbn [peval ieval]; f_equal; lia).
  assert (X12 : peval f h (PAdd (P0 19) (IC (i * stateSizeBytes P))) = Some (qi 12)) by (cbn [peval P0 ieval]; rewrite Hh, E19 by lia; cbn [nth_error]; unfold qi; rewrite Hs; destruct s; reflexivity).
  destruct (is_UR (transf P)) eqn:Hu.
  - destruct (D eq_refl) as [(pg & N18 & R18) _]. specialize (B150 eq_refl). specialize (B151 eq_refl). specialize (B152 eq_refl). eexists. split; [exists s1, s2, pin, pc, p3, pg; split; [reflexivity|auto 7]|].
    cbn [row map seq pargevals pargeval pevals]. rewrite !X1, X12. cbn [peval ieval]. rewrite !Hh by lia. rewrite B10, B11, B20, B21, B30, B31, Ns1, Ns2, N12, B140, B141, B142, B150, B151, B152, N16, N17, N18, E0, E5, Hu. reflexivity.
  - eexists. split; [exists s1, s2, pin, pc, p3, (0, 0); split; [reflexivity|]; repeat (split; [assumption|]); rewrite Hu; discriminate|].
    cbn [row map seq pargevals pargeval pevals]. rewrite !X1, X12. cbn [peval ieval]. rewrite !Hh by lia. rewrite B10, B11, B20, B21, B30, B31, Ns1, Ns2, N12, B140, B141, B142, N16, N17, E0, E5, Hu. reflexivity.
Qed.

Lemma round_in_call m u ps c : hp m c -> (forall x, 3 <= x < 9 -> c (pl x) = zeros (ver_size P x)) -> given_args ps ->
  round_call P E (mkState (args 0 [0; ch]) (args 0%N []) (args [] ps) m n0 u) qi ch pr salt pub pt.
Proof.
  intros H Hz (s1 & s2 & pin & pc & p3 & pg & -> & Rs1 & Rs2 & Rin & Rc & R3 & Rg). destruct proof_facts as (L1 & L2 & L3 & L4 & L5 & L6).
  pose proof (per_count P) as Pc. pose proof (per_pos P) as Pp.
  assert (RR : forall p l, reads st (verify_writes P q) p l -> forall ps, reads (mkState (args 0 [0; ch]) (args 0%N []) (args [] ps) m n0 u) (round_writes P qi) p l)
    by (intros p l R ps; apply (round_reads_in m u ps c p l H R)).
  assert (PT : forall x, x < ver_count P -> pts n0 m (qi x) (c (pl x)) /\ length (c (pl x)) = ver_size P x /\ bytes_ok (c (pl x))).
  { intros x Hx. pose proof (place_lt P x i Hx Hi) as K. split; [apply (heap_pts _ _ _ _ _ _ H _ K)|]. split; [rewrite (heap_len _ _ _ _ _ _ H _ K); apply (place_size P x i Hx)|apply (heap_ok _ _ _ _ _ _ H _ K)]. }
  assert (KK : forall a k f, constants st a k f (verify_writes P q) -> forall ps, nth a ps [] = pv st a -> constants (mkState (args 0 [0; ch]) (args 0%N []) (args [] ps) m n0 u) a k f (round_writes P qi)).
  { intros a k f Hc ps Ep j Hj. destruct (Hc j Hj) as (p & Np & Rp & Ap). exists p. split; [cbn [pv]; unfold args; rewrite Ep; exact Np|]. split; [apply RR, Rp|exact Ap]. }
  destruct (vw_slab _ _ _ _ _ _ _ _ HM) as (s & E19 & As & Hs). destruct (vw_align _ _ _ _ _ _ _ _ HM) as [A0 A1]. destruct (A1 i Hi) as (A3 & A4 & A7 & A8).
  split.
  - intros a b p k p' l Ha Hb Hne. unfold round_writes in Ha, Hb. rewrite nth_error_map in Ha, Hb.
    destruct (nth_error (seq 0 (ver_count P)) a) as [x|] eqn:Ea; [|discriminate]. destruct (nth_error (seq 0 (ver_count P)) b) as [x'|] eqn:Eb; [|discriminate].
    injection Ha as <- <-. injection Hb as <- <-. assert (Hx : x < ver_count P) by (pose proof (nth_error_In _ _ Ea) as Z; apply in_seq in Z; lia).
    assert (Hx' : x' < ver_count P) by (pose proof (nth_error_In _ _ Eb) as Z; apply in_seq in Z; lia).
    assert (Nx : x <> x') by (intros ->; apply Hne; apply (NoDup_nth_error (seq 0 (ver_count P))); [apply seq_NoDup|apply nth_error_Some; congruence|congruence]).
    rewrite <- (place_size P x i), <- (place_size P x' i) by assumption. apply (lay_apart _ _ _ (heap_lay _ _ _ _ _ _ H)); [apply place_lt; auto|apply place_lt; auto|].
    intros Eq. apply Nx. apply (place_inj P x x' i i Hx Hx' Eq).
  - intros x Hx. destruct (PT x Hx) as (A & B & C). exists (c (pl x)). split; [split; [exact A|exact C]|exact B].
  - intros x Hx. destruct (PT x ltac:(lia)) as (A & B & C). rewrite Hz in A by exact Hx. split; [exact A|apply bytes_ok_zeros].
  - unfold qi. rewrite (place_low P 0) by lia. repeat (split; [assumption|]). rewrite (Hs i Hi). unfold aligned in *. cbn [snd].
    rewrite Nat.add_mod, As, Nat.mul_mod, HA by lia. rewrite Nat.mul_0_r. reflexivity.
  - split; [reflexivity|exact Hch].
  - unfold qi. rewrite !(place_low P 0), !(place_low P 1), !(place_low P 2) by lia. repeat (split; [reflexivity|]). split; [|reflexivity]. intros Hu. cbn [pv]. unfold args. cbn [nth]. rewrite Hu. reflexivity.
  - destruct (vw_pt _ _ _ _ _ _ _ _ HM) as (p & A & B & C & D). exists p. split; [exact A|]. split; [apply RR, B|auto].
  - apply KK; [exact (vw_K _ _ _ _ _ _ _ _ HM)|reflexivity].
  - apply KK; [exact (vw_L _ _ _ _ _ _ _ _ HM)|reflexivity].
  - apply KK; [exact (vw_C _ _ _ _ _ _ _ _ HM)|reflexivity].
  - destruct (vw_rc _ _ _ _ _ _ _ _ HM) as (p & A & B & C). exists p. split; [exact A|]. split; [apply RR, B|auto].
  - exists (fun e => if e =? 0 then s1 else s2). split; [reflexivity|]. intros e He. unfold proof_seed. destruct (e =? 0); (split; [apply RR; assumption|assumption]).
  - destruct (vw_salt _ _ _ _ _ _ _ _ HM) as (p & A & B & C). split; [|exact C]. exists p. split; [exact A|apply RR, B].
  - split; [|exact L3]. exists pin. split; [reflexivity|apply RR, Rin].
  - destruct (vw_pub _ _ _ _ _ _ _ _ HM) as (p & A & B & C & D & _). exists p. split; [exact A|]. split; [apply RR, B|auto].
  - split; [|exact L4]. exists pc. split; [reflexivity|apply RR, Rc].
  - split; [|exact L5]. exists p3. split; [reflexivity|apply RR, R3].
  - intros Hu. split; [|exact (L6 Hu)]. exists pg. split; [cbn [pv]; unfold args; cbn [nth]; rewrite Hu; reflexivity|apply RR, Rg, Hu].
Qed.
End Round.

Lemma lift i m m' c c' : i < T -> hp m c -> heap n0 m (mkLayout (ver_count P) (fun x => q (place P x i)) (ver_size P)) n0 m' c' -> hp m' (merge P i c c').
Proof.
  intros Hi H H'. pose proof (heap_chg _ _ _ _ _ _ H') as C. apply (heap_multi n0 m0 vl n0 m m' c _ _ H C).
  - intros p k Hp. apply in_regions in Hp. destruct Hp as (x & Hx & -> & ->). cbn [cnt reg sz] in *. exists (place P x i). cbn [vl cnt reg sz]. split; [apply place_lt; auto|]. rewrite place_size by exact Hx. auto.
  - intros j Hj. cbn [vl cnt] in Hj. cbn [vl reg sz].
    assert (X : forall x, x < ver_count P -> pts n0 m' (q (place P x i)) (c' x) /\ length (c' x) = ver_size P x /\ bytes_ok (c' x)).
    { intros x Hx. split; [apply (heap_pts _ _ _ _ _ _ H' x Hx)|]. split; [apply (heap_len _ _ _ _ _ _ H' x Hx)|apply (heap_ok _ _ _ _ _ _ H' x Hx)]. }
    pose proof (per_count P). pose proof (per_pos P). destruct (place_inv P j Hj) as [L|(x & k & Hx & Hk & ->)].
    + rewrite <- (place_low P j i L). rewrite place_size, merge_in by lia. apply X. lia.
    + rewrite place_size by lia. destruct (Nat.eq_dec k i) as [->|Ne]; [rewrite merge_in by lia; apply X; lia|]. rewrite merge_out by auto.
      pose proof (place_lt P x k ltac:(lia) Hk) as K. pose proof (heap_len _ _ _ _ _ _ H _ K) as Lj. cbn [vl sz] in Lj. rewrite place_size in Lj by lia.
      split; [|split; [exact Lj|apply (heap_ok _ _ _ _ _ _ H _ K)]].
      apply (pts_chg n0 m m' _ _ _ C (heap_pts _ _ _ _ _ _ H _ K)). intros p l Hp. apply in_regions in Hp. destruct Hp as (x' & Hx' & -> & ->). cbn [cnt reg sz] in *.
      pose proof (lay_apart _ _ _ (heap_lay _ _ _ _ _ _ H) (place P x' i) (place P x k) ltac:(apply place_lt; auto) K) as D. cbn [vl reg sz] in D. rewrite Lj. rewrite !place_size in D by lia.
      apply D. intros Eq. destruct (place_inj P x' x i k Hx' ltac:(lia) Eq) as [-> [Z|Z]]; [lia|congruence].
Qed.

Notation chk := (chalv cb).
Lemma chk_ok k : k < T -> getChallenge cb k = Ok (chk k) /\ chk k < 3 /\ 2 * k + 1 < 8 * length cb.
Proof.
  intros Hk. destruct (vw_chal _ _ _ _ _ _ _ _ HM) as (p & _ & _ & Lc). destruct (vw_trits _ _ _ _ _ _ _ _ HM k Hk) as (ch & A & B). pose proof (numBytes_spec (2 * numMPCRounds P)) as N. rewrite <- Lc in N. unfold T in Hk.
  assert (K : 2 * k + 1 < 8 * length cb) by lia. rewrite getChallenge_ok in A by exact K. injection A as <-. split; [apply getChallenge_ok, K|auto].
Qed.
Definition fout (j : nat) : ptr := q (place P (by_party (chk (j / 3)) 7 8 12 (j mod 3)) (j / 3)).
Definition done_round (k : nat) (c : nat -> bytes) : Prop := exists pr vo cm gs, nth_error (s_proofs sg) k = Some pr /\
  verify_round Es P k pr cb salt pub pt = Ok (vo, cm, gs) /\ left_by P (fun x => c (place P x k)) (chk k) vo cm gs.
Definition inv (i : nat) (z : state) : Prop := nx z = n0 /\ (forall a, a <> 21 -> pv z a = pv st a) /\ (forall j, j < 3 * i -> nth_error (pv z 21) j = Some (fout j)) /\
  exists c, hp (mm z) c /\ (forall k, k < i -> done_round k c) /\ (forall x k, 3 <= x < 9 -> i <= k < T -> c (place P x k) = zeros (ver_size P x)).

Lemma left_ext c c' ch vo cm gs : (forall x, 3 <= x < ver_count P -> c' x = c x) -> ch < 3 -> left_by P c ch vo cm gs -> left_by P c' ch vo cm gs.
Proof.
  intros X Hch (A & B & C & D & F). pose proof (per_count P). pose proof (per_pos P). unfold left_by. rewrite !X by lia. split; [exact A|]. split; [exact B|]. split; [exact C|]. split.
  - intros j Hj. rewrite X by lia. apply D, Hj.
  - intros Hu j Hj. rewrite X; [apply F; auto|]. unfold ver_count. rewrite Hu. lia.
Qed.

Lemma pevals_prev f h n : (forall j, j < n -> nth_error (h 21) j = Some (fout j)) -> forall l ps, pevals f h l = Some ps ->
  pevals f h (map (fun j => PV 21 (IC j)) (seq 0 n) ++ l) = Some (map fout (seq 0 n) ++ ps).
Proof.
  intros H l ps Hl. assert (X : forall js, (forall j, In j js -> j < n) -> pevals f h (map (fun j => PV 21 (IC j)) js ++ l) = Some (map fout js ++ ps)).
  { induction js as [|j js IH]; intros Hj; [exact Hl|]. cbn [map app pevals peval ieval]. rewrite (H j) by (apply Hj; left; reflexivity). rewrite IH by (intros j' Hj'; apply Hj; right; exact Hj'). reflexivity. }
  apply X. intros j Hj. apply in_seq in Hj. lia.
Qed.

Lemma run_step i y : i < T -> inv i y -> runs U (c_step P i) y (inv (S i)).
Proof.
  intros Hi (Ny & Py & Oy & c & H & Hd & Hz). destruct (chk_ok i Hi) as (Gc & Lc & Bc). set (ch := chk i) in *.
  destruct (vw_chal _ _ _ _ _ _ _ _ HM) as (qc & E20 & R20 & _). destruct (vw_proofs _ _ _ _ _ _ _ _ HM i Hi) as (pr & Hpr & _).
  destruct y as [yi yd yp ym yn yc]. cbn [iv dv pv mm nx ct] in *. subst yn. unfold c_step.
  apply runs_seq. apply (h_getChallenge n0 m0 U vl 1 (P0 20) (IC i) _ c qc cb ch); cbn [iv dv pv mm nx ct ieval].
  { cbn [peval P0 ieval]. rewrite Py, E20 by lia. reflexivity. } { left. apply all_ro, R20. } { exact H. } { exact Gc. } { exact Bc. }
  intros u1. destruct (args_eval i Hi ch Lc pr Hpr (upd yi 1 ch) yp Py) as (ps & Gps & Eps).
  apply runs_seq. unfold c_round_call. eapply runs_call; [cbn [iv pv]; exact Eps|]. cbn [iv dv pv mm nx ct map ieval]. rewrite upd_eq.
  assert (Z9 : forall x, 3 <= x < 9 -> c (place P x i) = zeros (ver_size P x)) by (intros x Hx; apply Hz; lia).
  pose proof (round_in_call i Hi ch Lc pr Hpr ym u1 ps c H Z9 Gps) as RC. set (z0 := mkState _ _ _ _ _ _) in *.
  apply (runs_verify_round U HU E P HP1 HS HD HE0 HC z0 _ ch pr salt pub pt i RC). intros iv' m' u' c' _ H' D'. cbn [z0 nx mm iv dv pv ct] in *. cbn [copy_back].
  destruct (done_left U E P HU HP1 HD HE0 HC z0 _ ch pr salt pub pt i cb c' RC D' Gc) as (vo & cm & gs & VR & LF).
  pose proof (lift i ym m' c c' Hi H H') as HL.
  assert (FIN : forall l ps21 b1 b2 b3, pevals (upd yi 1 ch) yp l = Some ps21 -> ps21 = [q (place P b1 i); q (place P b2 i); q (place P b3 i)] ->
     by_party ch 7 8 12 0 = b1 -> by_party ch 7 8 12 1 = b2 -> by_party ch 7 8 12 2 = b3 ->
     runs U (c_outputs i l) (mkState (upd yi 1 ch) yd yp m' n0 u') (inv (S i))).
  { intros l ps21 b1 b2 b3 El -> Eb1 Eb2 Eb3. unfold c_outputs. eapply runs_pset; [cbn [iv pv]; exact (pevals_prev _ _ _ Oy _ _ El)|]. unfold set_pv. cbn [iv dv pv mm nx ct].
    split; [reflexivity|]. split; [intros a Ha; cbn [pv]; rewrite upd_neq by exact Ha; apply Py, Ha|]. split.
    - intros j Hj. cbn [pv]. rewrite upd_eq. destruct (Nat.lt_ge_cases j (3 * i)) as [L|L].
      + rewrite nth_error_app1 by (rewrite map_length, seq_length; exact L). apply (nth_map_seq fout (3 * i) j L).
      + rewrite nth_error_app2 by (rewrite map_length, seq_length; exact L). rewrite map_length, seq_length. unfold fout. fold ch.
        assert (Dj : j / 3 = i) by (symmetry; apply (Nat.div_unique j 3 i (j - 3 * i)); lia). assert (Mj : j mod 3 = j - 3 * i) by (rewrite Nat.mod_eq, Dj by lia; reflexivity). rewrite Dj, Mj. fold ch.
        destruct (lt3_cases (j - 3 * i) ltac:(lia)) as [->|[->| ->]]; cbn [nth_error]; congruence.
    - exists (merge P i c c'). cbn [mm]. split; [exact HL|]. pose proof (per_count P). pose proof (per_pos P). split.
      + intros k Hk. destruct (Nat.eq_dec k i) as [->|Ne].
        * exists pr, vo, cm, gs. split; [exact Hpr|]. split; [exact VR|]. apply (left_ext c' _ ch); [|exact Lc|exact LF]. intros x Hx. apply merge_in. lia.
        * destruct (Hd k ltac:(lia)) as (pr1 & vo1 & cm1 & gs1 & A1 & A2 & A3). exists pr1, vo1, cm1, gs1. split; [exact A1|]. split; [exact A2|].
          apply (left_ext _ _ (chk k) vo1 cm1 gs1 (fun x Hx => merge_out P i c c' x k Hx Ne)); [apply chk_ok; lia|exact A3].
      + intros x k Hx Hk. rewrite merge_out by lia. apply Hz; lia. }
  destruct (vw_bufs _ _ _ _ _ _ _ _ HM i Hi) as [B2 _]. destruct (B2 0 ltac:(lia)) as (_ & _ & B30). destruct (B2 1 ltac:(lia)) as (_ & _ & B31). unfold buffer in B30, B31.
  destruct (vw_slab _ _ _ _ _ _ _ _ HM) as (s & E19 & _ & Hs). specialize (Hs i Hi).
  assert (P1 : peval (upd yi 1 ch) yp (PV 3 (IC (2 * i))) = Some (q (place P 7 i))) by (cbn [peval ieval]; rewrite Py by lia; rewrite Nat.add_0_r in B30; exact B30).
  assert (P2 : peval (upd yi 1 ch) yp (PV 3 (IC (2 * i + 1))) = Some (q (place P 8 i))) by (cbn [peval ieval]; rewrite Py by lia; exact B31).
  assert (P3 : peval (upd yi 1 ch) yp (PAdd (P0 19) (IC (i * stateSizeBytes P))) = Some (q (place P 12 i)))
    by (cbn [peval P0 ieval]; rewrite Py, E19 by lia; cbn [nth_error]; rewrite Hs; destruct s; reflexivity).
  set (o1 := PV 3 (IC (2 * i))) in *. set (o2 := PV 3 (IC (2 * i + 1))) in *. set (o3 := PAdd (P0 19) (IC (i * stateSizeBytes P))) in *.
  eapply runs_if; [cbn [ceval ieval iv]; rewrite upd_eq; reflexivity|]. destruct (Nat.eqb_spec ch 0) as [E0|N0].
  { eapply (FIN _ _ 7 8 12); [cbn [pevals]; rewrite P1, P2, P3; reflexivity|reflexivity|rewrite E0; reflexivity|rewrite E0; reflexivity|rewrite E0; reflexivity]. }
  eapply runs_if; [cbn [ceval ieval iv]; rewrite upd_eq; reflexivity|]. destruct (Nat.eqb_spec ch 1) as [E1|N1].
  { eapply (FIN _ _ 12 7 8); [cbn [pevals]; rewrite P1, P2, P3; reflexivity|reflexivity|rewrite E1; reflexivity|rewrite E1; reflexivity|rewrite E1; reflexivity]. }
  assert (E2 : ch = 2) by lia.
  eapply (FIN _ _ 8 12 7); [cbn [pevals]; rewrite P1, P2, P3; reflexivity|reflexivity|rewrite E2; reflexivity|rewrite E2; reflexivity|rewrite E2; reflexivity].
Qed.

Lemma run_steps n : forall i y, i + n = T -> inv i y -> runs U (c_steps P (seq i n)) y (inv T).
Proof.
  induction n as [|n IH]; intros i y Hn Hy; cbn [seq c_steps]; [apply runs_skip; replace T with i by lia; exact Hy|]. apply runs_seq. eapply runs_mono; [apply run_step; [lia|exact Hy]|].
  intros z Hz. apply IH; [lia|exact Hz].
Qed.
Lemma start_inv : inv 0 st.
Proof.
  destruct all_heap as (c & H & Hz). split; [reflexivity|]. split; [reflexivity|]. split; [intros j Hj; lia|]. exists c. split; [exact H|]. split; [intros k Hk; lia|]. intros x k Hx Hk. apply Hz; lia.
Qed.

(** What the hash reads is in memory what the model hashes. *)
Definition mem_outs (c : nat -> bytes) : list (tri bytes) := map (fun k => (c (place P (by_party (chk k) 7 8 12 0) k), c (place P (by_party (chk k) 7 8 12 1) k), c (place P (by_party (chk k) 7 8 12 2) k))) (seq 0 T).
Definition mem_triple (b : nat) (c : nat -> bytes) : list (tri bytes) := map (fun k => (c (place P b k), c (place P (b + 1) k), c (place P (b + 2) k))) (seq 0 T).
Lemma tget_triple {A} (f : nat -> A) j : j < 3 -> tget (f 0, f 1, f 2) j = f j.
Proof. intros Hj. destruct (lt3_cases j Hj) as [->|[->| ->]]; reflexivity. Qed.
Lemma left_out c ch vo cm gs : ch < 3 -> left_by P c ch vo cm gs -> forall j, j < 3 -> c (by_party ch 7 8 12 j) = tget vo j.
Proof.
  intros Hch (A & B & C & _) j Hj. unfold by_party, nxt. destruct (lt3_cases ch Hch) as [->|[->| ->]], (lt3_cases j Hj) as [->|[->| ->]]; assumption.
Qed.
Lemma holds_mem lens F (l : list (tri bytes)) : length l = T -> (forall k, k < T -> nth_error l k = Some (F k 0, F k 1, F k 2)) -> (forall k j, k < T -> j < 3 -> lens j <= length (F k j)) ->
  ZkbChal.holds P lens l (fun k j => firstn (lens j) (F k j)).
Proof.
  intros Hl Hn Hs. split; [exact Hl|]. intros k t Ht j Hj. assert (Hk : k < T) by (rewrite <- Hl; apply nth_error_Some; congruence). rewrite (Hn k Hk) in Ht. injection Ht as <-. rewrite (tget_triple (F k)) by exact Hj. split; [apply Hs; auto|reflexivity].
Qed.

Lemma model_verify fuel m c b0 : hp m c -> (forall k, k < T -> done_round k c) -> length b0 = numBytes (2 * T) -> bytes_ok b0 ->
  match H3 Es P fuel pub pt (mem_outs c) (mem_triple 9 c) b0 salt msg (mem_triple 13 c) with
  | Ok chal => length chal = numBytes (2 * T) /\ verify Es P fuel sg pub pt msg = Ok (eqb_bytes (firstn (numBytes (2 * T)) cb) (firstn (numBytes (2 * T)) chal))
  | NoFuel => verify Es P fuel sg pub pt msg = NoFuel
  | _ => False
  end.
Proof.
  intros H Hd Lb Bb. pose proof (per_count P) as Pc. pose proof (per_pos P) as Pp. pose proof (shake_env E HE0) as HE.
  destruct (vw_chal _ _ _ _ _ _ _ _ HM) as (_ & _ & _ & Lc). destruct (vw_salt _ _ _ _ _ _ _ _ HM) as (_ & _ & _ & Ls). destruct (vw_pub _ _ _ _ _ _ _ _ HM) as (_ & _ & _ & _ & Lp & _). destruct (vw_pt _ _ _ _ _ _ _ _ HM) as (_ & _ & _ & _ & Lt).
  destruct (wfP_block P (w1_wfP P HP1)) as [W1 _].
  assert (LEN : forall x k, x < ver_count P -> k < T -> length (c (place P x k)) = ver_size P x) by (intros x k Hx Hk; rewrite (heap_len _ _ _ _ _ _ H _ (place_lt P x k Hx Hk)); apply (place_size P x k Hx)).
  assert (BP : forall k j, by_party (chk k) 7 8 12 j < ver_count P /\ ver_size P (by_party (chk k) 7 8 12 j) = stateSizeBytes P) by (intros k j; unfold by_party; destruct (j =? chk k); [split; [lia|reflexivity]|]; destruct (j =? nxt (chk k)); split; (lia || reflexivity)).
  set (fo := fun k j => c (place P (by_party (chk k) 7 8 12 j) k)). set (fc := fun k j => c (place P (9 + j) k)). set (fg := fun k j => c (place P (13 + j) k)).
  assert (UV : is_UR (transf P) = true -> ver_count P = 16) by (intros Hu; unfold ver_count; rewrite Hu; reflexivity).
  assert (GL : forall j, is_UR (transf P) = true -> j < 3 -> G_len P j <= UnruhGWithInputBytes P) by (intros j Hu Hj; rewrite (w1_Gw P HP1 Hu); unfold G_len; destruct (j =? 2); lia).
  assert (V9 : forall j, j < 3 -> ver_size P (9 + j) = digestSizeBytes P) by (intros j Hj; destruct (lt3_cases j Hj) as [->|[->| ->]]; reflexivity).
  assert (V13 : forall j, j < 3 -> ver_size P (13 + j) = UnruhGWithInputBytes P) by (intros j Hj; destruct (lt3_cases j Hj) as [->|[->| ->]]; reflexivity).
  assert (MO : ZkbChal.holds P (fun _ => stateSizeBytes P) (mem_outs c) (fun k j => firstn (stateSizeBytes P) (fo k j))).
  { apply (holds_mem (fun _ => stateSizeBytes P) fo). { unfold mem_outs. rewrite map_length, seq_length. reflexivity. } { intros k Hk. unfold mem_outs. rewrite nth_map_seq by exact Hk. reflexivity. }
    intros k j Hk Hj. unfold fo. destruct (BP k j) as [X Y]. rewrite LEN, Y by auto. lia. }
  assert (MC : ZkbChal.holds P (fun _ => digestSizeBytes P) (mem_triple 9 c) (fun k j => firstn (digestSizeBytes P) (fc k j))).
  { apply (holds_mem (fun _ => digestSizeBytes P) fc). { unfold mem_triple. rewrite map_length, seq_length. reflexivity. } { intros k Hk. unfold mem_triple. rewrite nth_map_seq by exact Hk. reflexivity. }
    intros k j Hk Hj. unfold fc. rewrite LEN, V9 by lia. lia. }
  assert (MG : is_UR (transf P) = true -> ZkbChal.holds P (G_len P) (mem_triple 13 c) (fun k j => firstn (G_len P j) (fg k j))).
  { intros Hu. apply (holds_mem (G_len P) fg). { unfold mem_triple. rewrite map_length, seq_length. reflexivity. } { intros k Hk. unfold mem_triple. rewrite nth_map_seq by exact Hk. reflexivity. }
    intros k j Hk Hj. unfold fg. specialize (UV Hu). rewrite LEN, V13 by lia. apply GL; auto. }
  pose proof (H3_spec Es P HP1 fuel pub pt _ _ _ b0 salt msg _ _ _ MO MC MG Lp ltac:(lia) Ls Lb Bb) as S1.
  set (R := fun k (r : tri bytes * tri bytes * tri bytes) => let '(vo, cm, gs) := r in left_by P (fun x => c (place P x k)) (chk k) vo cm gs).
  assert (Hr : ok (mapM_seq T 0 (fun i => pr <- rd (s_proofs sg) i ;; verify_round Es P i pr cb salt pub pt)) (fun l => length l = T /\ forall k x, nth_error l k = Some x -> R (0 + k) x)).
  { apply ok_mapM_seq. intros k Hk. destruct (Hd k ltac:(lia)) as (pr & vo & cm & gs & A & B & C). rewrite (rd_some _ _ _ A). cbn [bind]. rewrite B. exact C. }
  unfold verify. fold T. destruct (mapM_seq T 0 _) as [l| | |]; cbn [ok] in Hr; try contradiction. destruct Hr as [Hl Hq]. cbn [bind].
  assert (XO : ZkbChal.holds P (fun _ => stateSizeBytes P) (map (fun '(vo, _, _) => vo) l) (fun k j => firstn (stateSizeBytes P) (fo k j))).
  { split; [rewrite map_length; exact Hl|]. intros k t Ht j Hj. rewrite nth_error_map in Ht. destruct (nth_error l k) as [[[vo cm] gs]|] eqn:Hn; [|discriminate]. cbn in Ht. injection Ht as <-.
    assert (Hk : k < T) by (rewrite <- Hl; apply nth_error_Some; congruence). pose proof (left_out _ _ vo cm gs (proj1 (proj2 (chk_ok k Hk))) (Hq k _ Hn) j Hj) as X. cbn [Nat.add] in X. rewrite <- X. fold (fo k j). split; [|reflexivity].
    unfold fo. destruct (BP k j) as [X1 Y]. rewrite LEN, Y by auto. lia. }
  assert (XC : ZkbChal.holds P (fun _ => digestSizeBytes P) (map (fun '(_, cm, _) => cm) l) (fun k j => firstn (digestSizeBytes P) (fc k j))).
  { split; [rewrite map_length; exact Hl|]. intros k t Ht j Hj. rewrite nth_error_map in Ht. destruct (nth_error l k) as [[[vo cm] gs]|] eqn:Hn; [|discriminate]. cbn in Ht. injection Ht as <-.
    assert (Hk : k < T) by (rewrite <- Hl; apply nth_error_Some; congruence). destruct (Hq k _ Hn) as (_ & _ & _ & X & _). rewrite <- (X j Hj). fold (fc k j). split; [|reflexivity]. change (digestSizeBytes P <= length (fc k j)). unfold fc. rewrite LEN, V9 by lia. lia. }
  assert (XG : is_UR (transf P) = true -> ZkbChal.holds P (G_len P) (map (fun '(_, _, g) => g) l) (fun k j => firstn (G_len P j) (fg k j))).
  { intros Hu. split; [rewrite map_length; exact Hl|]. intros k t Ht j Hj. rewrite nth_error_map in Ht. destruct (nth_error l k) as [[[vo cm] gs]|] eqn:Hn; [|discriminate]. cbn in Ht. injection Ht as <-.
    destruct (Hq k _ Hn) as (_ & _ & _ & _ & X). destruct (X Hu j Hj) as [X1 X2]. split; [exact X1|]. symmetry. exact X2. }
  pose proof (H3_spec Es P HP1 fuel pub pt _ _ _ (uninit Es site_computed_challengebits 0 (numBytes (2 * T))) salt msg _ _ _ XO XC XG Lp ltac:(lia) Ls ltac:(apply uninit_len; auto) ltac:(apply HE)) as S2.
  destruct (trits Es P fuel _ (numMPCRounds P)) as [ts|] eqn:Et.
  - destruct S1 as (_ & _ & S1). destruct S2 as (_ & _ & S2). unfold T in S1, S2 |- *. rewrite S1, S2. cbn [bind]. destruct (chal_of_spec P ts) as (Hcl & _). split; [exact Hcl|]. rewrite memcmp_ok by lia. reflexivity.
  - unfold T in S1, S2 |- *. rewrite S1, S2. reflexivity.
Qed.

Lemma run_verify fuel : runs U (c_verify P (length msg) fuel) st (fun z => chg (nx st) (mm st) (mm z) (verify_writes P q) /\ nx z = nx st /\
  match verify Es P fuel sg pub pt msg with Ok b => iv z 2 = 1 /\ iv z 3 = (if b then 1 else 0) | NoFuel => iv z 2 = 0 | _ => False end).
Proof.
  unfold c_verify. apply runs_seq. eapply runs_mono; [apply (run_steps T 0 st ltac:(lia) start_inv)|]. intros y (Ny & Py & Oy & c & H & Hd & _).
  destruct y as [yi yd yp ym yn yc]. cbn [iv dv pv mm nx ct] in *. subst yn. set (nb := numBytes (2 * T)) in *. change (numBytes (2 * numMPCRounds P)) with nb.
  apply (h_loc n0 m0 U vl 23 (IC nb) _ _ c); [exact HU|exact H|]. intros b0 Lb0 Bb0. cbn [ieval iv dv pv mm nx ct] in *.
  pose proof (heap_push n0 m0 vl n0 ym c b0 H Bb0) as Hp. rewrite Lb0 in Hp. set (L' := push vl (n0, 0) nb) in *. set (kc := cnt vl) in *. set (c1 := cset c kc b0) in *.
  assert (Rg : forall k, k < kc -> reg L' k = q k) by (intros k Hk; unfold L', push; cbn [reg]; rewrite upd_neq by (unfold kc in *; lia); reflexivity).
  assert (Rk : reg L' kc = (n0, 0) /\ sz L' kc = nb) by (unfold L', push, kc; cbn [reg sz]; rewrite !upd_eq; auto). destruct Rk as [Rk1 Rk2].
  assert (Cn : cnt L' = S kc) by reflexivity. assert (C1 : forall k, k < kc -> c1 k = c k) by (intros k Hk; unfold c1; apply cset_neq; lia). assert (C1k : c1 kc = b0) by (unfold c1; apply cset_eq).
  pose proof (heap_lay _ _ _ _ _ _ H) as HL.
  assert (RO : forall p l, reads st (verify_writes P q) p l -> CodeHeap.ro n0 m0 L' p l) by (intros p l R; apply ro_push; [apply HL|apply all_ro, R]).
  destruct (vw_rc _ _ _ _ _ _ _ _ HM) as (qr & E9 & R9 & A9). destruct (vw_salt _ _ _ _ _ _ _ _ HM) as (qs & E11 & R11 & L11). destruct (vw_pub _ _ _ _ _ _ _ _ HM) as (qb & E13 & R13 & _ & L13 & S13).
  destruct (vw_pt _ _ _ _ _ _ _ _ HM) as (qp & E4 & R4 & _ & L4). destruct (vw_msg _ _ _ _ _ _ _ _ HM) as (qm & E22 & R22 & S22). destruct (vw_chal _ _ _ _ _ _ _ _ HM) as (qc & E20 & R20 & L20).
  pose proof (per_count P) as Pc. pose proof (per_pos P) as Pp. destruct (wfP_block P (w1_wfP P HP1)) as [W1 _]. pose proof (wf_W3 P (w1_wfP P HP1)) as W3.
  assert (PYP : forall a, a <> 21 -> a <> 23 -> upd yp 23 [(n0, 0)] a = pv st a) by (intros a H1 H2; rewrite upd_neq by exact H2; apply Py, H1).
  apply runs_seq. eapply runs_call; [cbn [pargevals pargeval pevals pv]; reflexivity|]. cbn [iv dv pv mm nx ct map]. rewrite upd_eq. rewrite (PYP 9), (PYP 14), (PYP 15), (PYP 13), (PYP 4), (PYP 11), (PYP 22) by lia. rewrite upd_neq by lia.
  set (y1 := mkState _ _ _ _ _ _).
  assert (SH : forall x k, x < ver_count P -> 3 <= x -> k < T -> short (c (place P x k))).
  { intros x k Hx H3 Hk. apply (small_short P); [exact HS|]. rewrite (heap_len _ _ _ _ _ _ H _ (place_lt P x k Hx Hk)). cbn [vl sz]. rewrite (place_size P x k Hx). do 13 (destruct x as [|x]; [cbn [ver_size]; lia|]). cbn [ver_size]. lia. }
  assert (SRC : forall x k n, x < ver_count P -> 3 <= x -> k < T -> n <= ver_size P x -> src n0 m0 L' kc c1 (q (place P x k)) n (c (place P x k))).
  { intros x k n Hx H3 Hk Hn. pose proof (place_lt P x k Hx Hk) as K. split; [right; exists (place P x k); split; [rewrite Cn; apply Nat.lt_lt_succ_r, K|]; split; [unfold kc; cbn [vl cnt]; lia|]; split; [symmetry; apply Rg, K|symmetry; apply C1, K]|].
    split; [apply (heap_ok _ _ _ _ _ _ H _ K)|]. split; [rewrite (heap_len _ _ _ _ _ _ H _ K); cbn [vl sz]; rewrite (place_size P x k Hx); exact Hn|apply SH; auto]. }
  assert (SRO : forall p l n, reads st (verify_writes P q) p l -> n <= length l -> short l -> src n0 m0 L' kc c1 p n l) by (intros p l n R Hn S; split; [left; apply RO, R|]; split; [apply R|]; split; [exact Hn|exact S]).
  assert (GO : gives_triples n0 m0 L' P kc y1 c1 3 (stateSizeBytes P) (stateSizeBytes P) (mem_outs c)).
  { intros k Hk. exists (c (place P (by_party (chk k) 7 8 12 0) k)), (c (place P (by_party (chk k) 7 8 12 1) k)), (c (place P (by_party (chk k) 7 8 12 2) k)). split; [unfold mem_outs; rewrite nth_map_seq by exact Hk; reflexivity|].
    assert (X : forall j, j < 3 -> gives n0 m0 L' kc y1 c1 3 (3 * k + j) (stateSizeBytes P) (c (place P (by_party (chk k) 7 8 12 j) k))).
    { intros j Hj. exists (fout (3 * k + j)). split; [cbn [y1 pv args nth]; apply Oy; unfold T in *; lia|]. unfold fout. replace ((3 * k + j) / 3) with k by (apply (Nat.div_unique (3 * k + j) 3 k j); lia).
      replace ((3 * k + j) mod 3) with j by (apply (Nat.mod_unique (3 * k + j) 3 k j); lia).
      assert (BP : by_party (chk k) 7 8 12 j < ver_count P /\ 3 <= by_party (chk k) 7 8 12 j /\ stateSizeBytes P <= ver_size P (by_party (chk k) 7 8 12 j)) by (unfold by_party; destruct (j =? chk k); [|destruct (j =? nxt (chk k))]; cbn [ver_size]; lia).
      apply SRC; [apply BP|apply BP|exact Hk|apply BP]. }
    split; [rewrite <- (Nat.add_0_r (3 * k)); apply (X 0); lia|]. split; [apply (X 1); lia|apply (X 2); lia]. }
  assert (GC : gives_triples n0 m0 L' P kc y1 c1 4 (digestSizeBytes P) (digestSizeBytes P) (mem_triple 9 c)).
  { intros k Hk. exists (c (place P 9 k)), (c (place P 10 k)), (c (place P 11 k)). split; [unfold mem_triple; rewrite nth_map_seq by exact Hk; reflexivity|].
    destruct (vw_bufs _ _ _ _ _ _ _ _ HM k Hk) as [_ B]. destruct (B 0 ltac:(lia)) as [B0 _]. destruct (B 1 ltac:(lia)) as [B1 _]. destruct (B 2 ltac:(lia)) as [B2 _]. rewrite Nat.add_0_r in B0.
    split; [|split]; (eexists; split; [cbn [y1 pv args nth]; eassumption|]; apply SRC; [lia|lia|exact Hk|cbn [ver_size]; lia]). }
  assert (GG : is_UR (transf P) = true -> gives_triples n0 m0 L' P kc y1 c1 5 (UnruhGWithoutInputBytes P) (UnruhGWithInputBytes P) (mem_triple 13 c)).
  { intros Hu k Hk. exists (c (place P 13 k)), (c (place P 14 k)), (c (place P 15 k)). split; [unfold mem_triple; rewrite nth_map_seq by exact Hk; reflexivity|]. assert (VC : ver_count P = 16) by (unfold ver_count; rewrite Hu; reflexivity).
    pose proof (w1_Gwo P HP1 Hu) as G1. pose proof (w1_Gw P HP1 Hu) as G2.
    destruct (vw_bufs _ _ _ _ _ _ _ _ HM k Hk) as [_ B]. destruct (B 0 ltac:(lia)) as [_ B0]. destruct (B 1 ltac:(lia)) as [_ B1]. destruct (B 2 ltac:(lia)) as [_ B2]. specialize (B0 Hu). specialize (B1 Hu). specialize (B2 Hu). rewrite Nat.add_0_r in B0.
    split; [|split]; (eexists; split; [cbn [y1 pv args nth]; eassumption|]; apply SRC; [lia|lia|exact Hk|cbn [ver_size]; lia]). }
  assert (HB : (N.of_nat (digestSizeBytes P) + 200 <= 2 ^ 32)%N) by (generalize HS; unfold small; generalize (2 ^ 32)%N; intros; lia).
  pose proof (h_H3 n0 m0 U L' E P kc HU HB (w1_T P HP1) HD ltac:(rewrite Cn; lia) Rk2 qr (RO _ _ R9) A9 fuel y1 c1 (mem_outs c) (mem_triple 9 c) (mem_triple 13 c) pub pt salt msg) as HH.
  rewrite C1k in HH. eapply runs_mono; [apply HH|].
  { exact Hp. } { exact E9. } { cbn [y1 pv args nth]. rewrite Rk1. reflexivity. } { exact GO. } { exact GC. } { exact GG. }
  { exists qb. split; [cbn [y1 pv args nth]; rewrite E13; reflexivity|]. apply SRO; auto. }
  { exists qp. split; [cbn [y1 pv args nth]; rewrite E4; reflexivity|]. apply SRO; [exact R4|lia|]. unfold short. rewrite L4. lia. }
  { exists qs. split; [cbn [y1 pv args nth]; rewrite E11; reflexivity|]. apply SRO; [exact R11|lia|]. apply (small_short P); [exact HS|lia]. }
  { exists qm. split; [cbn [y1 pv args nth]; rewrite E22; reflexivity|]. apply SRO; [exact R22|lia|exact S22]. }
  clear HH. intros z (c2 & Hz & Ez & Nz & RES). cbn [y1 nx] in Hz, Nz. pose proof (model_verify fuel ym c b0 H Hd Lb0 Bb0) as MV.
  set (z1 := mkState _ _ _ _ _ _). cbn [copy_back] in z1.
  assert (CH : forall m', heap n0 m0 vl n0 m' c2 -> chg (nx st) (mm st) m' (verify_writes P q)) by (intros m' Hm; exact (heap_chg _ _ _ _ _ _ Hm)).
  eapply runs_if; [cbn [ceval ieval]; reflexivity|]. cbn [z1 iv]. rewrite upd_eq.
  destruct (H3 Es P fuel pub pt (mem_outs c) (mem_triple 9 c) b0 salt msg (mem_triple 13 c)) as [chal| | |]; try contradiction.
  - destruct RES as [I5 K2]. destruct MV as [Lch MV]. rewrite I5. cbn [Nat.eqb]. rewrite MV. apply runs_seq.
    apply (h_memcmp n0 m0 U L' 0 (P0 20) (P0 23) (IC nb) z1 c2 qc (n0, 0) cb chal).
    + cbn [z1 peval P0 ieval pv iv]. rewrite (PYP 20), E20 by lia. reflexivity.
    + cbn [z1 peval P0 ieval pv iv]. rewrite upd_eq. reflexivity.
    + left. apply RO, R20.
    + right. exists kc. split; [rewrite Cn; lia|]. split; [symmetry; exact Rk1|symmetry; exact K2].
    + cbn [ieval]. unfold nb, T. lia.
    + cbn [ieval]. unfold nb. lia.
    + cbn [z1 nx mm]. rewrite Nz. exact Hz.
    + cbn [ieval]. intros d u Hd0. apply runs_ifd. cbn [deval dv]. rewrite upd_eq. rewrite Hd0. fold nb. destruct (eqb_bytes (firstn nb cb) (firstn nb chal)).
      * apply runs_iset. exists c2. unfold set_iv. cbn [iv dv pv mm nx ct z1]. split; [exact Hz|]. intros m' Hm. split; [apply CH, Hm|]. split; [reflexivity|]. cbn [iv ieval]. split; [rewrite upd_neq by lia; rewrite upd_eq; exact I5|apply upd_eq].
      * apply runs_iset. exists c2. unfold set_iv. cbn [iv dv pv mm nx ct z1]. split; [exact Hz|]. intros m' Hm. split; [apply CH, Hm|]. split; [reflexivity|]. cbn [iv ieval]. split; [rewrite upd_neq by lia; rewrite upd_eq; exact I5|apply upd_eq].
  - rewrite RES. cbn [Nat.eqb]. apply runs_skip. exists c2. cbn [z1 mm nx]. rewrite MV. split; [exact Hz|]. intros m' Hm. split; [apply CH, Hm|]. split; [reflexivity|]. cbn [z1 iv]. rewrite upd_eq. exact RES.
Qed.
End S.

Theorem verify_code U E p P st q sg pub pt msg fuel :
  locals_ok U -> get_param_set p = Some P -> is_picnic3 p = false -> p <> Picnic_L1_full -> env_bytes_ok E -> constants_ok E P ->
  verify_call P E st q sg pub pt msg ->
  exists st' t, run U (c_verify P (length msg) fuel) st = Some (st', t) /\
    chg (nx st) (mm st) (mm st') (verify_writes P q) /\ nx st' = nx st /\
    match verify (with_shake E) P fuel sg pub pt msg with
    | Ok b => iv st' 2 = 1 /\ iv st' 3 = (if b then 1 else 0)
    | NoFuel => iv st' 2 = 0
    | _ => False
    end.
Proof.
  intros HU HP Hp Hf HE HC HM. pose proof (run_verify U HU E P (get_param_set_wfP1 p P HP Hp) (get_param_set_small p P HP) (get_param_set_digest p P HP) HE HC st q sg pub pt msg HM (zkb_block_sizes p P HP Hp Hf) fuel) as R.
  unfold runs in R. destruct (run U _ st) as [[y t]|]; [|contradiction]. exists y, t. split; [reflexivity|exact R].
Qed.
