(** The data that the computation of the ZKB++ challenge shows is a function of the digest it starts from. *)

From Coq Require Import List NArith Arith Bool Lia ZifyBool ZifyNat ZifyN.
From Verif Require Import Base Params Env Spec LowMC Picnic1 MiniC CodeLowMC CodeZkb CodeKeccak CodeP3 CodeSpec HashSpec CodeKeccakSpec CodeP3Spec CodeHashUses CodeHashUsesSpec CodeSign CodeVerRound CodeVerAll
  ApiSpec BaseFacts ParamFacts LowMCFacts ZkbChal HashProofs P3Round
  MiniCFacts CodeRules CodeLowMCProofs CodeHeap CodeZkbMpc CodeP3Proofs CodeP3Lin CodeP3Sim CodeShow CodeHashUsesProofs CodeHashUsesTop CodeSignRules CodeSignProofs CodeH3Proofs CodeTraceSpec CodeTraceSim.
Import ListNotations.
Local Open Scope c_scope.

Section F.
Variables (E : env) (P : paramset).
Notation scanned := (scanned P).
Lemma scanned_model pairs : forall c r c' r' d, H3_scan P pairs c r = Ok (c', r', d) -> exists l, scanned pairs r = (l, r', d).
Proof.
  induction pairs as [|p ps IH]; intros c r c' r' d H; cbn [H3_scan scanned] in *.
  - injection H as <- <- <-. eauto.
  - destruct (N.ltb p 3).
    + destruct (setChallenge c r p) as [c1| | |]; try discriminate. cbn [bind] in H. destruct (S r =? numMPCRounds P); [injection H as <- <- <-; eauto|].
      destruct (IH _ _ _ _ _ H) as [l ->]. eauto.
    + destruct (IH _ _ _ _ _ H) as [l ->]. eauto.
Qed.
Lemma scanned_app a b : forall r, scanned (a ++ b) r = let '(l, r1, d) := scanned a r in if (d : bool) then (l, r1, true) else let '(l2, r2, d2) := scanned b r1 in (l ++ l2, r2, d2).
Proof.
  induction a as [|p a IH]; intros r; cbn [app scanned].
  - destruct (scanned b r) as [[l r1] d]. reflexivity.
  - destruct (N.ltb p 3); [destruct (S r =? numMPCRounds P); [reflexivity|]|]; rewrite IH; destruct (scanned a _) as [[l r1] d]; destruct d; try reflexivity; destruct (scanned b r1) as [[l2 r2] d2]; reflexivity.
Qed.
End F.

Section Z.
Variables (n0 : nat) (m0 : memory) (U : nat -> nat -> bytes).
Notation heap := (heap n0 m0).
Notation ro := (ro n0 m0).
Variable L : layout.
Variables (E : env) (P : paramset).
Let T := numMPCRounds P.
Let dB := digestSizeBytes P.
Variables (kc kh : nat).
Hypotheses (Kc : kc < cnt L) (Kh : kh < cnt L) (Kn : kc <> kh) (Sc : 2 * T <= 8 * sz L kc) (Sh : sz L kh = dB).
Notation after := (after n0 m0 L P kc).
Notation looked pairs r := (fst (fst (scanned P pairs r))).

Lemma after_scanned y c pairs z : after y c pairs z -> scanned P pairs (iv y 4) = (looked pairs (iv y 4), iv z 4, negb (iv z 5 =? 0)).
Proof.
  intros (c' & r' & d & A & _ & B & C & _). destruct (scanned_model P _ _ _ _ _ _ A) as [l ->]. rewrite B, C. destruct d; reflexivity.
Qed.
Lemma looked_stop y c a b z : after y c a z -> iv z 5 <> 0 -> looked (a ++ b) (iv y 4) = looked a (iv y 4).
Proof. intros A N. rewrite scanned_app, (after_scanned _ _ _ _ A). rewrite (proj2 (Nat.eqb_neq _ _) N). reflexivity. Qed.
Lemma looked_more y c a b z : after y c a z -> iv z 5 = 0 -> looked (a ++ b) (iv y 4) = looked a (iv y 4) ++ looked b (iv z 4).
Proof. intros A N. rewrite scanned_app, (after_scanned _ _ _ _ A), N. cbn [Nat.eqb negb]. destruct (scanned P b (iv z 4)) as [[l2 r2] d2]. reflexivity. Qed.

Lemma shown_pair j y z t : run U (c_pair P j) y = Some (z, t) -> shown t = [N.land (N.shiftr (dv y 0) (N.of_nat (6 - j))) 3].
Proof.
  unfold c_pair. set (v := N.land _ 3).
  assert (V : deval (iv y) (dv y) (DCast 1 (DOp OAnd (DShr (DV 0) (IC (6 - j))) (DC 3))) = v).
  { cbn [deval dop_eval ieval]. fold v. apply N.mod_small. assert (v < 4)%N by (unfold v; change 3%N with (N.ones 2); rewrite N.land_ones; apply N.mod_upper_bound; discriminate). change (wmod 1) with 256%N. lia. }
  assert (SN : shows_nothing (If (CLt (IV 3) (IC 3)) (c_setChallenge (P0 11) (IV 4) (DV 1) ;; ISet 4 (IAdd (IV 4) (IC 1)) ;; If (CEq (IV 4) (IC (numMPCRounds P))) (ISet 5 (IC 1)) Skip) Skip) = true) by reflexivity.
  remember (If _ _ _) as rest eqn:Er. clear Er. intros H. cbn [run] in H. destruct (inv_andthen _ _ _ _ H) as (x1 & t1 & t2 & A & B & ->). clear H. injection A as <- <-.
  destruct (inv_andthen _ _ _ _ B) as (x2 & t3 & t4 & A & C & ->). clear B. injection A as <- <-. cbn [app]. cbn [shown flat_map app]. fold (shown t4). rewrite (shown_nothing U rest SN _ _ _ C).
  unfold set_dv. cbn [iv dv deval]. rewrite upd_eq. change (deval (iv y) (dv y) (DCast 1 (DOp OAnd (DShr (DV 0) (IC (6 - j))) (DC 3))) :: [] = [v]). rewrite V. reflexivity.
Qed.
Lemma s_pair j y c : heap L (nx y) (mm y) c -> iv y 4 < T -> iv y 5 = 0 -> pv y 11 = [reg L kc] ->
  shows U (c_pair P j) y (fun z sh => (after y c [N.land (N.shiftr (dv y 0) (N.of_nat (6 - j))) 3] z /\ dv z 0 = dv y 0) /\ sh = [N.land (N.shiftr (dv y 0) (N.of_nat (6 - j))) 3]).
Proof.
  intros H Hr H5 E11. pose proof (h_pair n0 m0 U L P kc kh Kc Kh Kn Sc Sh j y c H Hr H5 E11) as A. unfold runs in A. unfold shows. pose proof (shown_pair j y) as B.
  destruct (run U (c_pair P j) y) as [[z t]|]; [|exact A]. split; [exact A|apply (B z t eq_refl)].
Qed.

Lemma s_pairs js : forall y c, heap L (nx y) (mm y) c -> iv y 4 < T -> iv y 5 = 0 -> pv y 11 = [reg L kc] ->
  let pairs := map (fun j => N.land (N.shiftr (dv y 0) (N.of_nat (6 - j))) 3) js in
  shows U (c_pairs P js) y (fun z sh => after y c pairs z /\ sh = looked pairs (iv y 4)).
Proof.
  induction js as [|j js IH]; intros y c H Hr H5 E11; cbv zeta.
  - apply shows_skip. split; [apply (after_nil n0 m0 L P kc); auto|reflexivity].
  - cbn [c_pairs map]. apply shows_seq. eapply shows_mono; [exact (s_pair j y c H Hr H5 E11)|]. intros z sh [[A D] ->]. set (t := N.land _ _) in *. change (t :: ?l) with ([t] ++ l).
    assert (L1 : looked [t] (iv y 4) = [t]) by (cbn [scanned]; destruct (N.ltb t 3); [destruct (S (iv y 4) =? numMPCRounds P)|]; reflexivity).
    eapply shows_if; [reflexivity|]. cbn [ieval]. destruct (Nat.eqb_spec (iv z 5) 0) as [E0|E0].
    + rewrite (looked_more y c [t] _ z A E0), L1.
      destruct (after_more n0 m0 U L P kc kh Kc Kh Kn Sc Sh y c [t] (map (fun j => N.land (N.shiftr (dv y 0) (N.of_nat (6 - j))) 3) js) z A E0) as (c' & H' & _ & Hr' & Ep & En & X).
      eapply shows_mono; [apply (IH z c' H' Hr' E0); rewrite Ep; exact E11|]. intros w sh [W ->]. rewrite D in W |- *. split; [apply X, W|reflexivity].
    + apply shows_skip. rewrite (looked_stop y c [t] _ z A E0), L1. split; [apply (after_stop n0 m0 L P kc y c [t] _ z A E0)|reflexivity].
Qed.

Lemma s_scan h is_ : Forall (fun i => i < dB) is_ -> forall y c, heap L (nx y) (mm y) c -> iv y 4 < T -> iv y 5 = 0 -> pv y 11 = [reg L kc] -> pv y 10 = [reg L kh] -> c kh = h ->
  shows U (c_scan P is_) y (fun z sh => after y c (flat_map (fun i => byte_pairs (nth i h 0%N)) is_) z /\ sh = looked (flat_map (fun i => byte_pairs (nth i h 0%N)) is_) (iv y 4)).
Proof.
  intros Hi. induction Hi as [|i is_ Hi _ IH]; intros y c H Hr H5 E11 E10 Eh.
  - apply shows_skip. split; [apply (after_nil n0 m0 L P kc); auto|reflexivity].
  - cbn [c_scan flat_map]. apply shows_seq, shows_quiet; [reflexivity|].
    apply (h_ld1 n0 m0 U L 0 _ y c kh i (reg L kh)); [exact H|exact Kh|reflexivity| |lia|].
    { cbn [peval P0 ieval]. rewrite E10. cbn [nth_error]. destruct (reg L kh); reflexivity. }
    apply shows_seq. set (y1 := set_dv y _).
    eapply shows_mono; [apply (s_pairs [0; 2; 4; 6] y1 c H Hr H5 E11)|]. intros z sh [A ->].
    assert (D : dv y1 0 = nth i h 0%N) by (unfold y1, set_dv; cbn [dv]; rewrite upd_eq, Eh; reflexivity). rewrite D in A |- *.
    change (map (fun j => N.land (N.shiftr (nth i h 0%N) (N.of_nat (6 - j))) 3) [0; 2; 4; 6]) with (byte_pairs (nth i h 0%N)) in *. change (iv y1 4) with (iv y 4).
    change (after y1 c (byte_pairs (nth i h 0%N)) z) with (after y c (byte_pairs (nth i h 0%N)) z) in A.
    eapply shows_if; [reflexivity|]. cbn [ieval]. destruct (Nat.eqb_spec (iv z 5) 0) as [E0|E0].
    + rewrite (looked_more y c _ _ z A E0).
      destruct (after_more n0 m0 U L P kc kh Kc Kh Kn Sc Sh y c _ (flat_map (fun i => byte_pairs (nth i h 0%N)) is_) z A E0) as (c' & H' & Hc & Hr' & Ep & En & X).
      eapply shows_mono; [apply (IH z c' H' Hr' E0); rewrite ?Ep; auto; rewrite Hc; auto|]. intros w sh [W ->]. split; [apply X, W|reflexivity].
    + apply shows_skip. rewrite (looked_stop y c _ _ z A E0), app_nil_r. split; [apply (after_stop n0 m0 L P kc y c _ _ z A E0)|reflexivity].
Qed.

Notation Es := (with_shake E).
Hypotheses (HU : locals_ok U) (HB : (N.of_nat dB + 200 <= 2 ^ 32)%N) (HT : 0 < T).
Variable qr : ptr.
Hypotheses (Rr : ro L qr round_constant_bytes) (Ar : snd qr mod 8 = 0).

Lemma s_expand fuel : forall y c, heap L (nx y) (mm y) c -> iv y 4 < T -> iv y 5 = 0 -> pv y 0 = [qr] -> pv y 11 = [reg L kc] -> pv y 10 = [reg L kh] ->
  shows U (c_expand P fuel) y (fun _ sh => sh = expanded Es P fuel (c kh) (iv y 4)).
Proof.
  induction fuel as [|fuel IH]; intros y c H Hr H5 E0 E11 E10.
  - apply shows_skip. reflexivity.
  - cbn [c_expand expanded]. apply shows_seq. pose proof (heap_len _ _ _ _ _ _ H kh Kh) as Lh. rewrite Sh in Lh.
    assert (Fs : Forall (fun i => i < dB) (seq 0 dB)) by (apply Forall_forall; intros i Hi; apply in_seq in Hi; lia).
    eapply shows_mono; [exact (s_scan (c kh) (seq 0 dB) Fs y c H Hr H5 E11 E10 eq_refl)|].
    intros z sh [A ->]. pose proof (pairs_all L P kh Sh (c kh) Lh) as PA0. fold dB in PA0. rewrite PA0 in A |- *. rewrite (after_scanned y c _ z A). set (l := looked _ _). destruct A as (chal' & r' & d & Ha & Hz & H4z & H5z & Hd & Hp & Hn).
    eapply shows_if; [reflexivity|]. cbn [ieval]. rewrite H5z. destruct d; cbn [Nat.eqb negb].
    + apply shows_skip. reflexivity.
    + apply shows_seq, shows_quiet.
      { cbn [shows_nothing]. unfold c_rehash, with_ctx. cbn [shows_nothing]. rewrite digest_shows. reflexivity. }
      set (c1 := cset c kc chal') in *. assert (C1 : c1 kh = c kh) by (apply cset_neq; congruence). rewrite <- Hn in Hz.
      set (d := shake (use_shake128 P) (1%N :: c kh) dB).
      assert (Ld : length d = dB) by apply shake_ok.
      apply (h_leaves n0 m0 U L (c_rehash P) [PA 0; PL []; PL []; PA 10] [] [[qr]; []; []; [reg L kh]] z c1 kh d).
      * cbn [pargevals pargeval pevals]. rewrite Hp, E0, E10. reflexivity.
      * cbv zeta. set (z0 := mkState _ _ _ _ _ _).
        assert (Hh : CodeHashUsesSpec.holds z0 3 0 dB (c kh)).
        { exists (reg L kh). split; [reflexivity|]. pose proof (heap_pts _ _ _ _ _ _ Hz kh Kh) as X. rewrite C1 in X. split; [exact X|].
          split; [apply (heap_ok _ _ _ _ _ _ H kh Kh)|]. split; [lia|]. unfold short. rewrite Lh. exact HB. }
        assert (W : writes U (c_rehash P) z0 (reg L kh) d).
        { unfold d. replace (1%N :: c kh) with (prefix_bytes HASH_PREFIX_1 ++ concat [firstn dB (c kh)]) by (cbn [prefix_bytes HASH_PREFIX_1 concat app]; rewrite app_nil_r; f_equal; apply firstn_all2; lia).
          apply (single U HU P HASH_PREFIX_1 z0 qr); [reflexivity| |discriminate| |].
          - apply (z_constants z [[qr]; []; []; [reg L kh]] qr); auto. apply (heap_ro _ _ _ _ _ _ _ _ Hz Rr).
          - split; [reflexivity|]. split; [|rewrite <- Sh; apply (proj2 Rr kh Kh)]. exists (c1 kh). split; [rewrite C1; exact Lh|apply (heap_pts _ _ _ _ _ _ Hz kh Kh)].
          - intros w Hw. constructor; [|constructor]. apply item_holds; [discriminate|exact Hw|exact Hh]. }
        destruct W as (z' & t & R1 & R2). exists z', t. split; [exact R1|]. split; [exact R2|]. intros m' u Hm. cbn [copy_back].
        assert (Cb : blit_list (c1 kh) 0 d = d) by (rewrite C1; apply blit_list_all; lia).
        rewrite Cb in Hm. set (w := mkState _ _ _ _ _ _).
        assert (K1 : cset c1 kh d kh = d) by apply cset_eq.
        eapply shows_mono; [apply (IH w (cset c1 kh d))|]; cbn [w iv dv pv mm nx ct].
        -- exact Hm.
        -- rewrite H4z. apply Hd. reflexivity.
        -- exact H5z.
        -- rewrite Hp. exact E0.
        -- rewrite Hp. exact E11.
        -- rewrite Hp. exact E10.
        -- intros w' sh ->. rewrite K1. cbn [app]. unfold hash. cbn [prefix_bytes HASH_PREFIX_1 concat app]. rewrite app_nil_r. reflexivity.
      * exact Kh.
      * rewrite Ld, Sh. auto.
      * apply shake_ok.
      * exact Hz.
Qed.
End Z.

(** The whole of H3, in a memory with a region for the challenge. *)
Section H3.
Variables (n0 : nat) (m0 : memory) (U : nat -> nat -> bytes).
Notation heap := (heap n0 m0).
Notation ro := (ro n0 m0).
Variable L : layout.
Variables (E : env) (P : paramset).
Let T := numMPCRounds P.
Let dB := digestSizeBytes P.
Notation Es := (with_shake E).
Variable kc : nat.
Hypotheses (HU : locals_ok U) (HB : (N.of_nat dB + 200 <= 2 ^ 32)%N) (HT : 0 < T) (HD : 0 < dB) (Kc : kc < cnt L) (Sc : sz L kc = numBytes (2 * T)).
Variable qr : ptr.
Hypotheses (Rr : ro L qr round_constant_bytes) (Ar : snd qr mod 8 = 0).
Notation gives := (gives n0 m0 L kc).
Notation gives_triples := (gives_triples n0 m0 L P kc).

Lemma s_H3 fuel y c vo cm gs pub pt salt msg : heap L (nx y) (mm y) c -> pv y 0 = [qr] -> pv y 11 = [reg L kc] ->
  gives_triples y c 3 (stateSizeBytes P) (stateSizeBytes P) vo -> gives_triples y c 4 dB dB cm ->
  (is_UR (transf P) = true -> gives_triples y c 5 (UnruhGWithoutInputBytes P) (UnruhGWithInputBytes P) gs) ->
  gives y c 6 0 (stateSizeBytes P) pub -> gives y c 7 0 (stateSizeBytes P) pt -> gives y c 8 0 (saltSizeBytes P) salt -> gives y c 9 0 (length msg) msg ->
  exists inp, H3_input P pub pt vo cm salt msg gs = Ok inp /\
  shows U (c_H3 P (length msg) fuel) y (fun _ sh => sh = expanded Es P fuel (hash Es P HASH_PREFIX_1 inp dB) 0).
Proof.
  intros H E0 E11 G3 G4 G5 G6 G7 G8 G9. unfold c_H3. pose proof (numBytes_spec (2 * T)) as Hnb. pose proof (heap_len _ _ _ _ _ _ H kc Kc) as Lc.
  destruct (HU (ct y) dB) as [Lb Bb]. set (b0 := U (ct y) dB) in *. set (L' := push L (nx y, 0) dB). set (kh := cnt L).
  pose proof (heap_push n0 m0 L (nx y) (mm y) c b0 H Bb) as Hp. rewrite Lb in Hp. fold L' in Hp. fold kh in Hp. set (c1 := cset c kh b0) in *.
  pose proof (heap_lay _ _ _ _ _ _ H) as HL.
  assert (Rg : forall k, k < cnt L -> reg L' k = reg L k /\ sz L' k = sz L k) by (intros k Hk; unfold L', push; cbn [reg sz]; rewrite !upd_neq by lia; auto).
  assert (Rh : reg L' kh = (nx y, 0) /\ sz L' kh = dB) by (unfold L', push, kh; cbn [reg sz]; rewrite !upd_eq; auto).
  assert (Cn : cnt L' = S kh) by reflexivity.
  destruct (Rg kc Kc) as [Rc1 Rc2]. destruct Rh as [Rh1 Rh2]. assert (Nk : kc <> kh) by (unfold kh; lia).
  assert (Rr' : CodeHeap.ro n0 m0 L' qr round_constant_bytes) by (apply ro_push; [apply HL|exact Rr]).
  set (y1 := mkState (iv y) (dv y) (upd (pv y) 10 [(nx y, 0)]) (upd (mm y) (nx y) b0) (S (nx y)) (S (ct y))).
  assert (ST : runs U (St 1 (PAdd (P0 11) (IC (numBytes (T * 2) - 1))) (DC 0)) y1 (fun z => exists m2, z = set_mm y1 m2 /\ CodeHeap.heap n0 m0 L' (nx y1) m2 (cset c1 kc (list_set (c1 kc) (numBytes (T * 2) - 1) 0%N)))).
  { apply (h_st1 n0 m0 U L' _ _ y1 c1 kc (numBytes (T * 2) - 1) (reg L' kc)); [exact Hp|rewrite Cn; unfold kh; lia|reflexivity| | |].
    - cbn [y1 pv iv peval P0 ieval]. rewrite upd_neq by lia. rewrite E11, Rc1. cbn [nth_error]. destruct (reg L kc). reflexivity.
    - rewrite Rc2, Sc. rewrite (Nat.mul_comm T 2). lia.
    - intros m2 H2. exists m2. split; [reflexivity|exact H2]. }
  unfold runs in ST. destruct (run U _ y1) as [[zs ts]|] eqn:RS; [|contradiction]. destruct ST as (m2 & -> & H2).
  set (y2 := set_mm y1 m2) in *. assert (C1 : c1 kc = c kc) by (apply cset_neq; exact Nk).
  rewrite C1 in H2. set (chal0 := list_set (c kc) (numBytes (T * 2) - 1) 0%N) in *. set (c2 := cset c1 kc chal0) in *.
  assert (Cx : forall k, k < cnt L -> k <> kc -> c2 k = c k) by (intros k Hk Hne; unfold c2; rewrite cset_neq by exact Hne; apply cset_neq; unfold kh; lia).
  set (ps := [[qr]; []; []; pv y 3; pv y 4; pv y 5; pv y 6; pv y 7; pv y 8; pv y 9; [(nx y, 0)]]). set (z0 := mkState (args 0 []) (args 0%N []) (args [] ps) (mm y2) (nx y2) (ct y2)).
  assert (X : forall a i n l, nth a ps [] = pv y a -> gives y c a i n l -> CodeHashUsesSpec.holds z0 a i n l).
  { intros a i n l Ea (q & Hq & Hs & B & L1 & S1). exists q. split; [cbn [z0 pv]; unfold args; rewrite Ea; exact Hq|]. split; [|auto]. cbn [z0 nx mm y2 set_mm y1].
    destruct Hs as [Hs|(k & Hk & Hne & -> & ->)].
    - apply (heap_ro _ _ L' _ _ c2 _ _ H2). apply ro_push; [apply HL|exact Hs].
    - pose proof (heap_pts _ _ _ _ _ _ H2 k ltac:(rewrite Cn; unfold kh; lia)) as Y. rewrite (proj1 (Rg k Hk)), Cx in Y by auto. exact Y. }
  assert (X3 : forall a n n' l, nth a ps [] = pv y a -> gives_triples y c a n n' l -> holds_triples z0 a (numMPCRounds P) n n' l).
  { intros a n n' l Ea Hg i Hi. destruct (Hg i Hi) as (x1 & x2 & x3 & A0 & A1 & A2 & A3). exists x1, x2, x3. split; [exact A0|]. split; [apply X; auto|]. split; apply X; auto. }
  assert (Hc0 : constants z0 qr) by (apply (z_constants y2 ps qr); auto; apply (heap_ro _ _ L' _ _ c2 _ _ H2), Rr').
  assert (Hrm : room_at z0 qr 10 0 (nx y, 0) dB).
  { split; [reflexivity|]. split.
    - exists (c2 kh). pose proof (heap_pts _ _ _ _ _ _ H2 kh ltac:(lia)) as Y. pose proof (heap_len _ _ _ _ _ _ H2 kh ltac:(lia)) as Y2. rewrite Rh1 in Y. rewrite Rh2 in Y2. auto.
    - pose proof (proj2 Rr' kh ltac:(lia)) as Y. rewrite Rh1, Rh2 in Y. exact Y. }
  destruct (H3_code U HU P z0 qr (nx y, 0) vo cm gs pub pt salt msg Hc0 Hrm) as (chunks & HI & (z1 & t1 & R1 & R2)).
  { apply X3; [reflexivity|exact G3]. } { apply X3; [reflexivity|exact G4]. } { intros Hu. apply X3; [reflexivity|exact (G5 Hu)]. }
  { apply X; [reflexivity|exact G6]. } { apply X; [reflexivity|exact G7]. } { apply X; [reflexivity|exact G8]. } { apply X; [reflexivity|exact G9]. }
  set (d := shake _ _ _) in R2. assert (Ld : length d = dB) by apply shake_ok.
  exists chunks. split; [exact HI|]. apply shows_loc. cbn [ieval]. fold dB. fold b0. fold y1. apply shows_seq, shows_quiet; [reflexivity|]. unfold runs. fold T. rewrite RS. cbn [app].
  apply shows_seq, shows_quiet.
  { cbn [shows_nothing]. unfold c_H3_hash, with_ctx. cbn [shows_nothing]. rewrite digest_shows. reflexivity. }
  apply (h_leaves n0 m0 U L' _ _ _ ps y2 c2 kh d).
  - cbn [pargevals pargeval pevals y2 set_mm y1 pv iv]. rewrite !upd_neq by lia. rewrite upd_eq, E0. reflexivity.
  - cbv zeta. fold z0. exists z1, t1. rewrite Rh1. split; [exact R1|]. split; [exact R2|]. intros m3 u3 H3'. cbn [copy_back app].
    assert (Cb : blit_list (c2 kh) 0 d = d) by (apply blit_list_all; rewrite (heap_len _ _ _ _ _ _ H2 kh ltac:(lia)), Rh2; auto). rewrite Cb in H3'.
    apply shows_seq, shows_quiet; [reflexivity|]. apply runs_iset. apply shows_seq, shows_quiet; [reflexivity|]. apply runs_iset. unfold set_iv. cbn [iv dv pv mm nx ct app]. set (y4 := mkState _ _ _ _ _ _).
    assert (K1 : cset c2 kh d kh = d) by apply cset_eq.
    assert (XE : shows U (c_expand P fuel) y4 (fun _ sh => sh = expanded Es P fuel (cset c2 kh d kh) (iv y4 4))).
    { apply (s_expand n0 m0 U L' E P kc kh) with (qr := qr); auto.
      - rewrite Cn. unfold kh. lia.
      - rewrite Rc2, Sc. fold T. lia.
      - rewrite Rc1. exact E11.
      - rewrite Rh1. reflexivity. }
    eapply shows_mono; [exact XE|]. intros w sh ->. rewrite K1. unfold hash. cbn [prefix_bytes HASH_PREFIX_1 app]. reflexivity.
  - lia.
  - rewrite Ld, Rh2. auto.
  - apply shake_ok.
  - exact H2.
Qed.
End H3.
