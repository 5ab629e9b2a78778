(** The data shown by ZKB++ signing is a function of the signature, the public key, the plaintext and the message. *)

From Coq Require Import List NArith Arith Bool Lia ZifyBool ZifyNat ZifyN.
From Verif Require Import Base Params Env Spec LowMC Picnic1 MiniC CodeLowMC CodeZkb CodeKeccak CodeP3 CodeSpec HashSpec CodeKeccakSpec CodeZkbSpec CodeP3Spec CodeHashUses CodeSign CodeSignSpec CodeVerAll CodeSignAll CodeSignAllSpec CodeTraceSpec
  ApiSpec BaseFacts ParamFacts LowMCFacts Hint SigSpec ZkbMpc Zkb ZkbRound ZkbSign ZkbChal ZkbCodec ZkbTop ZkbProps HashProofs
  MiniCFacts CodeRules CodeLowMCProofs CodeHeap CodeZkbMpc CodeZkbRun CodeP3Proofs CodeP3Lin CodeP3Sim CodeShow CodeHashUsesTop CodeSignRules CodeSignProofs CodeSignThm CodeVerifyProofs CodeH3Proofs CodeSignAllModel CodeSignAllProofs CodeTraceSim CodeTraceH3 ApiFacts.
From Verif Require CodeHashUsesSpec CodeVerRoundThm.
Import ListNotations.
Local Open Scope c_scope.

(** ** The digest the challenge is computed from, as a function of the signature *)
Section D.
Variables (E : env) (P : paramset) (HP1 : wfP1 P) (HE : env_bytes_ok E) (HC : constants_ok E P).
Let T := numMPCRounds P.

Lemma H3_input_hash pub pt vo cm gs salt msg fo fc fg inp :
  ZkbChal.holds P (fun _ => stateSizeBytes P) vo fo -> ZkbChal.holds P (fun _ => digestSizeBytes P) cm fc ->
  (is_UR (transf P) = true -> ZkbChal.holds P (G_len P) gs fg) ->
  stateSizeBytes P <= length pub -> stateSizeBytes P <= length pt -> length salt = saltSizeBytes P ->
  H3_input P pub pt vo cm salt msg gs = Ok inp ->
  hash E P HASH_PREFIX_1 inp (digestSizeBytes P) = chal_hash E P (chal_input P fo fc fg pub pt salt msg).
Proof.
  intros [Lo Ho] [Lc Hc] Hg Hpub Hpt Hsalt. unfold H3_input. fold T in Lo, Lc |- *.
  rewrite (mapM_seq_pure T 0 _ (fun k => fo k 0 ++ fo k 1 ++ fo k 2)).
  2:{ intros k Hk. destruct (nth_error vo k) as [t|] eqn:Ht.
      2:{ apply nth_error_None in Ht. lia. }
      rewrite (rd_some _ _ _ Ht). cbn [bind].
      pose proof (Ho k t Ht) as H. destruct t as [[a b] c]. unfold tri_chunks.
      destruct (H 0 ltac:(lia)) as [L0 E0]. destruct (H 1 ltac:(lia)) as [L1 E1].
      destruct (H 2 ltac:(lia)) as [L2 E2]. cbn [tget] in *.
      rewrite !slice0_ok by auto. cbn [bind]. rewrite E0, E1, E2. auto. }
  cbn [bind].
  rewrite (mapM_seq_pure T 0 _ (fun k => fc k 0 ++ fc k 1 ++ fc k 2)).
  2:{ intros k Hk. destruct (nth_error cm k) as [t|] eqn:Ht.
      2:{ apply nth_error_None in Ht. lia. }
      rewrite (rd_some _ _ _ Ht). cbn [bind].
      pose proof (Hc k t Ht) as H. destruct t as [[a b] c]. unfold tri_chunks.
      destruct (H 0 ltac:(lia)) as [L0 E0]. destruct (H 1 ltac:(lia)) as [L1 E1].
      destruct (H 2 ltac:(lia)) as [L2 E2]. cbn [tget] in *.
      rewrite !slice0_ok by auto. cbn [bind]. rewrite E0, E1, E2. auto. }
  cbn [bind].
  assert (Hgc : (if is_UR (transf P)
                 then mapM_seq T 0 (fun i => t <- rd gs i ;; G_chunks P t) else Ok []) =
                Ok (if is_UR (transf P)
                    then map (fun k => fg k 0 ++ fg k 1 ++ fg k 2) (seq 0 T) else [])).
  { destruct (is_UR (transf P)) eqn:Hur; auto. destruct (Hg eq_refl) as [Lg Hg'].
    apply mapM_seq_pure. intros k Hk. destruct (nth_error gs k) as [t|] eqn:Ht.
    2:{ apply nth_error_None in Ht. unfold T in Hk. lia. }
    rewrite (rd_some _ _ _ Ht). cbn [bind].
    pose proof (Hg' k t Ht) as H. destruct t as [[a b] c]. unfold G_chunks.
    destruct (H 0 ltac:(lia)) as [L0 E0]. destruct (H 1 ltac:(lia)) as [L1 E1].
    destruct (H 2 ltac:(lia)) as [L2 E2]. cbn [tget] in *.
    assert (G0 : UnruhGWithoutInputBytes P = G_len P 0)
      by (rewrite (w1_Gwo P HP1 Hur); unfold G_len; cbn; lia).
    assert (G2 : UnruhGWithInputBytes P = G_len P 2)
      by (rewrite (w1_Gw P HP1 Hur); unfold G_len; cbn; lia).
    rewrite G0, G2. change (G_len P 1) with (G_len P 0) in L1, E1.
    rewrite !slice0_ok by auto. cbn [bind]. rewrite E0, E1, E2. auto. }
  rewrite Hgc. cbn [bind]. rewrite slice0_ok by auto. cbn [bind].
  rewrite slice0_ok by auto. cbn [bind].
  rewrite slice_all by auto. cbn [bind]. intros X. injection X as <-.
  unfold chal_hash, hash, chal_input. f_equal. f_equal. rewrite !concat_app. cbn [concat].
  rewrite !app_nil_r. do 2 f_equal. f_equal. destruct (is_UR (transf P)); auto.
Qed.

Lemma vr_opening_of ch pr o salt k : ch < 3 -> proof_is P ch pr o ->
  (forall pub pt j, vr_out E P ch (opening_of P ch pr) salt k pub pt j = vr_out E P ch o salt k pub pt j) /\
  (forall pt j, vr_commit E P ch (opening_of P ch pr) salt k pt j = vr_commit E P ch o salt k pt j) /\
  (is_UR (transf P) = true -> forall pt j, vr_g E P ch (opening_of P ch pr) salt k pt j = vr_g E P ch o salt k pt j).
Proof.
  intros Hch (A1 & A2 & A3 & A4 & A5 & _ & A6).
  assert (V : forall pt, vr_views E P ch (opening_of P ch pr) salt k pt = vr_views E P ch o salt k pt).
  { intros pt. unfold vr_views, opening_of. cbn [o_seed1 o_seed2 o_in o_comm]. rewrite A1, A2, A3. destruct (Nat.eq_dec ch 0) as [->|Ne]; [reflexivity|]. rewrite (A6 Ne). reflexivity. }
  split; [|split].
  - intros pub pt j. unfold vr_out. rewrite V. reflexivity.
  - intros pt j. unfold vr_commit. rewrite V. unfold opening_of. cbn [o_seed1 o_seed2 o_c3]. rewrite A1, A2, A4. reflexivity.
  - intros Hu pt j. unfold vr_g. rewrite V. unfold opening_of. cbn [o_seed1 o_seed2 o_g3]. rewrite A1, A2. destruct (A5 Hu) as [_ ->]. reflexivity.
Qed.

Variables sk pub pt msg : bytes.
Hypotheses (Hsk : stateSizeBytes P <= length sk /\ bytes_ok sk) (Hpub : stateSizeBytes P <= length pub /\ bytes_ok pub) (Hpt : stateSizeBytes P <= length pt /\ 4 * stateSizeWords P <= length pt /\ bytes_ok pt).
Lemma sign_digest s cb : padding_zero P sk -> lowmc_relation E P sk pt pub -> (forall k, k < T -> chalv cb k < 3) ->
  sig_is P s cb (sig_salt E P sk pub pt msg) (sign_opening E P sk pub pt msg cb) ->
  chal_hash E P (sign_input E P sk pub pt msg) = sig_digest E P s pub pt msg.
Proof.
  intros Hpad Hrel Hc (Sc & Ss & Sl & Sp). unfold sig_digest. f_equal. unfold ver_input, sign_input. cbv zeta. rewrite Sc, Ss.
  destruct Hsk as [K1 K2]. destruct Hpub as [B1 B2]. destruct Hpt as (P1 & P2 & P3).
  assert (H : forall k j, k < T -> j < 3 -> _) by
    exact (fun k j Hk Hj => vr_sr E P HP1 HE HC (seed_of E P sk pub pt msg k) (sig_salt E P sk pub pt msg) k
      sk pub pt (chalv cb k) j (fun j Hj => length_seed_of E P HE sk pub pt msg k j Hk Hj) K1 K2 Hpad P2 P3 B1 B2 Hrel (Hc k Hk) Hj).
  cbv zeta in H.
  assert (O : forall k, k < T -> exists pr, opened P s k = opening_of P (chalv cb k) pr /\ proof_is P (chalv cb k) pr (sign_opening E P sk pub pt msg cb k)).
  { intros k Hk. unfold opened. rewrite Sc. destruct (nth_error (s_proofs s) k) as [pr|] eqn:Hn; [|apply nth_error_None in Hn; unfold T in Hk; lia]. exists pr. split; [reflexivity|apply Sp, Hn]. }
  symmetry. apply chal_input_ext; auto.
  - intros k j Hk Hj. destruct (O k Hk) as (pr & -> & Hpr). rewrite (proj1 (vr_opening_of _ _ _ _ k (Hc k Hk) Hpr)). apply H; assumption.
  - intros k j Hk Hj. destruct (O k Hk) as (pr & -> & Hpr). rewrite (proj1 (proj2 (vr_opening_of _ _ _ _ k (Hc k Hk) Hpr))). apply H; assumption.
  - intros Hu k j Hk Hj. destruct (O k Hk) as (pr & -> & Hpr). rewrite (proj2 (proj2 (vr_opening_of _ _ _ _ k (Hc k Hk) Hpr)) Hu). apply H; assumption.
Qed.
End D.

(** ** The data shown *)
Section S.
Variables (U : nat -> nat -> bytes) (HU : locals_ok U) (E : env) (P : paramset) (HP1 : wfP1 P) (HS : small P) (HD : 0 < digestSizeBytes P) (HN : pos_b P = true) (HE0 : env_bytes_ok E) (HC : constants_ok E P).
Variables (st : state) (q : nat -> ptr) (sk pub pt msg : bytes).
Hypothesis HM : signer_call P E st q sk pub pt msg.
Notation Es := (with_shake E).
Let T := numMPCRounds P.
Let I := inner P.
Let n0 := nx st.
Let m0 := mm st.
Let vl : layout := mkLayout (signer_count P) q (signer_size P).
Notation hp := (heap n0 m0 vl n0).
Notation allSeeds := (all_seeds Es P sk pub pt msg).
Notation salt := (sig_salt Es P sk pub pt msg).
Notation done := (done E P allSeeds salt sk pt).

Lemma getChallenge_shown x p i y z t : run U (c_getChallenge x p i) y = Some (z, t) -> shown t = [N.of_nat (iv z x)].
Proof.
  intros H. destruct (inv_call _ _ _ _ _ _ _ _ _ _ H) as (ps & w & _ & A & ->). unfold getChallenge_body in A.
  destruct (inv_quiet U _ _ _ _ _ (eq_refl : shows_nothing (c_getBit _ _ _) = true) A) as (x1 & t1 & A1 & ->).
  destruct (inv_quiet U _ _ _ _ _ (eq_refl : shows_nothing (c_getBit _ _ _) = true) A1) as (x2 & t2 & A2 & ->).
  injection A2 as <- <-. cbn [copy_back iv set_iv shown flat_map app]. rewrite !upd_eq, N2Nat.id. reflexivity.
Qed.
Lemma prove_quiet : shows_nothing (c_prove P) = true.
Proof. unfold c_prove. destruct (is_UR (transf P)); reflexivity. Qed.

Section Packs.
Variables (cb : bytes) (Lcb : length cb = numBytes (2 * T)) (H3cb : forall k, k < T -> chalv cb k < 3).
Variable c1 : nat -> bytes.
Hypotheses (C1s : c1 I = allSeeds) (C1c : c1 (I + 2) = cb) (C1d : forall k, k < T -> done k c1).
Notation inv := (inv E P st q sk pub pt msg cb c1).

Lemma s_pack i y : i < T -> inv i y -> shows U (c_pack P i) y (fun z sh => inv (S i) z /\ sh = [N.of_nat (chalv cb i)]).
Proof.
  intros Hi Hy. pose proof (run_pack U E P HP1 HD HN HE0 HC st q sk pub pt msg HM cb Lcb H3cb c1 C1s C1c C1d i y Hi Hy) as R.
  unfold runs in R. unfold shows. destruct (run U (c_pack P i) y) as [[z t]|] eqn:Rn; [|contradiction]. split; [exact R|].
  unfold c_pack in Rn. cbn [run] in Rn. destruct (inv_andthen _ _ _ _ Rn) as (w & t1 & t2 & A & B & ->). change (run U (c_getChallenge 1 (P0 23) (IC i)) y = Some (w, t1)) in A.
  rewrite shown_app, (getChallenge_shown _ _ _ _ _ _ A). rewrite (shown_nothing U (Call (c_prove P) _ _ _ _ _) prove_quiet _ _ _ B).
  destruct Hy as (Ny & Py & I2 & I3 & c & H & Hc & Hd). pose proof (numBytes_spec (2 * T)) as Hnb.
  assert (G : runs U (c_getChallenge 1 (P0 23) (IC i)) y (fun z => iv z 1 = chalv cb i)).
  { apply (h_getChallenge n0 m0 U vl 1 (P0 23) (IC i) _ c (q (I + 2)) cb (chalv cb i)); cbn [ieval].
    - cbn [peval P0 ieval]. rewrite Py by lia. rewrite (sg_chal _ _ _ _ _ _ _ _ HM). reflexivity.
    - right. exists (I + 2). split; [cbn [vl cnt]; unfold signer_count; fold I; lia|]. split; [reflexivity|]. rewrite Hc by (fold I; lia). symmetry. exact C1c.
    - rewrite Ny. exact H.
    - apply getChallenge_ok. lia.
    - lia.
    - intros u. cbn [iv]. apply upd_eq. }
  unfold runs in G. rewrite A in G. rewrite G. reflexivity.
Qed.
Lemma s_packs n : forall i y, i + n = T -> inv i y -> shows U (c_packs P (seq i n)) y (fun _ sh => sh = map (fun k => N.of_nat (chalv cb k)) (seq i n)).
Proof.
  induction n as [|n IH]; intros i y Hn Hy; cbn [seq c_packs map]; [apply shows_skip; reflexivity|]. apply shows_seq. eapply shows_mono; [apply s_pack; [lia|exact Hy]|].
  intros z sh [Hz ->]. eapply shows_mono; [apply IH; [lia|exact Hz]|]. intros w sh ->. reflexivity.
Qed.
End Packs.

Lemma start_quiet n : shows_nothing (c_start P n) = true.
Proof. unfold c_start. cbn [shows_nothing]. unfold c_computeSeeds, c_derive, with_ctx. cbn [shows_nothing]. rewrite !digest_shows. reflexivity. Qed.

Lemma s_sign fuel s : padding_zero P sk -> sign_picnic1 Es P fuel sk pub pt msg = Ok (Some s) ->
  shows U (c_sign P (length msg) fuel) st (fun _ sh => sh = sign_shown Es P fuel s pub pt msg).
Proof.
  intros Hpad Hsig. pose proof (shake_env E HE0) as HE. pose proof (wf_W3 P (w1_wfP P HP1)) as W3. destruct (wfP_block P (w1_wfP P HP1)) as [W1 _].
  destruct (sg_sk _ _ _ _ _ _ _ _ HM) as (qk & _ & R12 & _ & L12 & _ & _). destruct (sg_pub _ _ _ _ _ _ _ _ HM) as (qb & _ & R13 & L13 & _). destruct (sg_pt _ _ _ _ _ _ _ _ HM) as (qp & _ & R4 & _ & L4).
  assert (L4a : stateSizeBytes P <= length pt) by lia. assert (L4b : 4 * stateSizeWords P <= length pt) by lia.
  pose proof (sign_spec Es P HP1 HE HC sk pub pt msg (conj L12 (proj1 (proj2 R12))) (conj L13 (proj1 (proj2 R13))) (conj L4a (conj L4b (proj1 (proj2 R4)))) fuel) as MS.
  rewrite Hsig in MS. destruct MS as (Rel & ts & Et & Lts & Fts & SI). set (cb := chal_of P ts) in *.
  assert (Lcb : length cb = numBytes (2 * T)) by apply chal_of_spec. assert (Hc3 : forall k, k < T -> chalv cb k < 3) by (intros k Hk; apply (chalv_chal_of P ts k); auto).
  pose proof (sign_digest Es P HP1 HE HC sk pub pt msg (conj L12 (proj1 (proj2 R12))) (conj L13 (proj1 (proj2 R13))) (conj L4a (conj L4b (proj1 (proj2 R4)))) s cb Hpad Rel Hc3 SI) as DG.
  destruct SI as (Sc & _). unfold sign_shown. rewrite <- DG, Sc. clear DG. fold T.
  assert (ST : runs U (c_start P (length msg) ;; c_sign_loop P ;; Skip) st (fun x => exists iv' m u c, x = mkState iv' (dv st) (pv st) m n0 u /\ hp m c /\ c I = allSeeds /\ c (I + 1) = salt /\ iv' 2 = 1 /\ forall k, k < T -> done k c)).
  { apply (run_rounds U HU E P HP1 HS HD HN HE0 HC st q sk pub pt msg HM). intros iv' m u c H CI CS X. apply runs_skip. destruct X as [(J2 & _ & Hd)|[_ NR]]; [|contradiction].
    exists iv', m, u, c. auto 10. }
  unfold runs in ST. destruct (run U (c_start P (length msg) ;; c_sign_loop P ;; Skip) st) as [[x t]|] eqn:Rn; [|contradiction].
  cbn [run] in Rn. destruct (inv_andthen _ _ _ _ Rn) as (x1 & t1 & t2 & A & B & ->). destruct (inv_andthen _ _ _ _ B) as (x2 & t3 & t4 & C & F & ->). injection F as -> <-.
  destruct ST as (iv' & m & u & c & Ex & H & CI & CS & J2 & Hd).
  assert (S1 : shown t1 = []) by (apply (shown_nothing U _ (start_quiet (length msg)) _ _ _ A)).
  assert (S2 : shown t3 = repeat 0%N (T * (stateSizeBytes P + 1))) by (apply (sign_loop_shows U P x1 x t3 C); rewrite Ex; cbn [iv]; lia).
  unfold c_sign. apply shows_seq. unfold shows at 1. rewrite A, S1. cbn [app]. apply shows_seq. unfold shows at 1. rewrite C, S2.
  subst x. eapply shows_if; [cbn [ceval ieval iv]; reflexivity|]. rewrite J2. cbn [Nat.eqb].
  assert (HI2 : I + 2 < cnt vl) by (cbn [vl cnt]; unfold signer_count; fold I; lia).
  destruct (H3_ready E P HP1 HS HD HN HE0 st q sk pub pt msg HM iv' m c H CS) as (vo & qr & EV & R9 & A9 & RDY).
  apply shows_seq. unfold c_challenge. apply shows_seq. apply shows_quiet; [reflexivity|]. eapply runs_pset; [cbn [iv pv]; exact EV|]. unfold set_pv. cbn [iv dv pv mm nx ct].
  set (ps := [pv st 9; []; []; vo; pv st 14; pv st 15; pv st 13; pv st 4; pv st 11; pv st 22; []; pv st 23]).
  set (y0 := mkState iv' (dv st) (upd (pv st) 21 vo) m n0 u). set (y1 := mkState (args 0 []) (args 0%N []) (args [] ps) m n0 u).
  assert (PA0 : pargevals (iv y0) (pv y0) [PA 9; PL []; PL []; PA 21; PA 14; PA 15; PA 13; PA 4; PA 11; PA 22; PL []; PA 23] = Some ps).
  { cbn [y0 iv pv pargevals pargeval pevals]. rewrite upd_eq. rewrite !upd_neq by lia. reflexivity. }
  destruct (RDY y1 eq_refl) as (D1 & D2 & D3 & D4 & D5 & D6 & D7 & D8 & D9).
  assert (HB : (N.of_nat (digestSizeBytes P) + 200 <= 2 ^ 32)%N) by (generalize HS; unfold small; generalize (2 ^ 32)%N; intros; lia).
  pose proof (h_H3 n0 m0 U vl E P (I + 2) HU HB (w1_T P HP1) HD HI2 (size_chal P HD HN st q) qr R9 A9 fuel y1 c (mem_triple P 6 c) (mem_triple P 9 c) (mem_triple P 12 c) pub pt salt msg H D1 D2 D3 D4 D5 D6 D7 D8 D9) as HH.
  destruct (s_H3 n0 m0 U vl E P (I + 2) HU HB (w1_T P HP1) HD HI2 (size_chal P HD HN st q) qr R9 A9 fuel y1 c (mem_triple P 6 c) (mem_triple P 9 c) (mem_triple P 12 c) pub pt salt msg H D1 D2 D3 D4 D5 D6 D7 D8 D9) as (inp & HI & SH).
  pose proof (model_H3 E P HP1 HD HN HE0 st q sk pub pt msg HM fuel m c H Hd) as MH. fold T in MH. fold T in Et. rewrite Et in MH. fold I in MH. rewrite MH in HH. fold cb in HH.
  destruct (mem_H3 E P HP1 HD HN st q sk pub pt msg m c H Hd) as (M6 & M9 & M12).
  pose proof (H3_input_hash Es P HP1 pub pt _ _ _ salt msg _ _ _ inp M6 M9 M12 L13 L4a (length_sig_salt Es P HE sk pub pt msg) HI) as HX.
  change (chal_input P _ _ _ pub pt salt msg) with (sign_input Es P sk pub pt msg) in HX. rewrite HX in SH.
  assert (CALL : runs U (Call (c_H3 P (length msg) fuel) [] [] [PA 9; PL []; PL []; PA 21; PA 14; PA 15; PA 13; PA 4; PA 11; PA 22; PL []; PA 23] [(3, 5)] []) y0
    (fun z => exists c2, hp (mm z) c2 /\ (forall j, j < cnt vl -> j <> I + 2 -> c2 j = c j) /\ nx z = n0 /\ pv z = upd (pv st) 21 vo /\ iv z 2 = 1 /\ iv z 3 = 1 /\ c2 (I + 2) = cb)).
  { eapply runs_call; [exact PA0|]. cbn [map y0 mm nx ct]. fold y1. eapply runs_mono; [exact HH|]. intros z (c2 & Hz & Ez & Nz & I5 & K2). cbn [y1 nx] in Hz, Nz. cbn [copy_back mm nx pv iv y0].
    exists c2. split; [exact Hz|]. split; [exact Ez|]. split; [exact Nz|]. split; [reflexivity|]. rewrite upd_neq by lia. split; [exact J2|]. rewrite upd_eq. auto. }
  pose proof (shows_call U (c_H3 P (length msg) fuel) [] [] [PA 9; PL []; PL []; PA 21; PA 14; PA 15; PA 13; PA 4; PA 11; PA 22; PL []; PA 23] [(3, 5)] [] y0 ps _ PA0 SH) as SC.
  eapply shows_mono; [exact (shows_both U _ _ _ _ CALL SC)|]. intros z sh [(c2 & Hz & Ez & Nz & Pz & Z2 & Z3 & K2) ->]. clear CALL SC SH HH.
  assert (C2 : forall j, j < I + 2 -> c2 j = c j) by (intros j Hj; apply Ez; lia).
  eapply shows_if; [cbn [ceval ieval]; reflexivity|]. rewrite Z3. cbn [Nat.eqb].
  eapply shows_mono; [apply (s_packs cb Lcb Hc3 c2)|].
  - rewrite C2 by lia. exact CI.
  - exact K2.
  - intros k Hk. apply (done_ext E P HD HN st sk pub pt msg k c); [exact Hk| |apply Hd, Hk]. intros j Hj. fold I in Hj. apply C2. lia.
  - reflexivity.
  - split; [exact Nz|]. rewrite Pz. split; [intros a Ha; apply upd_neq, Ha|]. split; [exact Z2|]. split; [exact Z3|]. exists c2. split; [exact Hz|]. split; [reflexivity|]. intros k Hk. lia.
  - intros w sh ->. cbn [app]. reflexivity.
Qed.
End S.

Theorem sign_trace_code U E p P fuel st q sk pub pt msg s :
  locals_ok U -> get_param_set p = Some P -> is_picnic3 p = false -> env_bytes_ok E -> constants_ok E P ->
  signer_call P E st q sk pub pt msg -> padding_zero P sk ->
  sign_picnic1 (with_shake E) P fuel sk pub pt msg = Ok (Some s) ->
  observed (run U (c_sign P (length msg) fuel) st) = Some (sign_trace (with_shake E) P fuel (place st) s pub pt msg).
Proof.
  intros HU HP Hp HE HC HM Hpad Hsig.
  pose proof (s_sign U HU E P (get_param_set_wfP1 p P HP Hp) (get_param_set_small p P HP) (CodeVerRoundThm.get_param_set_digest p P HP) (get_param_set_pos p P HP) HE HC st q sk pub pt msg HM fuel s Hpad Hsig) as X.
  unfold shows in X. destruct (run U (c_sign P (length msg) fuel) st) as [[y t]|] eqn:Rn; [|contradiction]. pose proof (sim_run U _ _ _ _ [] Rn) as Z. rewrite app_nil_r, X in Z.
  unfold sign_trace. rewrite Z. reflexivity.
Qed.
