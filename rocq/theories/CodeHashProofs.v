(** The hash interface on memory. *)

From Coq Require Import List NArith Arith Bool Lia ZifyBool ZifyNat ZifyN.
From Verif Require Import Base Params Env Spec MiniC CodeLowMC CodeKeccak CodeSpec Keccak KeccakSpec HashSpec CodeKeccakSpec.
From Verif Require Import BaseFacts KeccakPerm KeccakSponge KeccakProofs HashProofs MiniCFacts CodeRules CodeLowMCProofs CodeHeap CodeLanes CodeKeccakProofs CodeSpongeProofs CodeSqueezeProofs.
Import ListNotations.

Section M.
Variable U : nat -> nat -> bytes.
Hypothesis HU : locals_ok U.

Lemma runs_report y (Q : state -> Prop) : iv y 8 = 0 -> Q y -> runs U c_report y Q.
Proof. intros H HQ. unfold c_report. eapply runs_if; [csimpl; rewrite H; reflexivity|]. apply runs_skip. exact HQ. Qed.

Lemma runs_HashInitialize y A q s rate cap (Q : state -> Prop) : peval (iv y) (pv y) A = Some q -> pts (nx y) (mm y) q s -> length s = 200 ->
  rate + cap = 1600 -> 0 < rate -> rate mod 8 = 0 ->
  (forall m' c' i', i' 0 = rate -> i' 1 = 0 -> i' 2 = 0 -> i' 11 = iv y 11 -> pts (nx y) m' q (zeros 200) -> chg (nx y) (mm y) m' [(q, 200)] ->
     Q (mkState i' (dv y) (pv y) m' (nx y) c')) ->
  runs U (c_HashInitialize A rate cap) y Q.
Proof.
  intros Hq Pq Ls H1600 Hr H8 HQ. unfold c_HashInitialize. eapply runs_call; [cbn [pargevals pargeval pevals]; rewrite Hq; reflexivity|]. csimpl.
  unfold SpongeInitialize_body. eapply runs_if; [csimpl; rewrite H1600, Nat.eqb_refl; reflexivity|]. cbn match.
  eapply runs_if; [csimpl; rewrite (proj2 (Nat.eqb_neq rate 0)) by lia; reflexivity|]. cbn match.
  eapply runs_if; [csimpl; rewrite (proj2 (Nat.ltb_ge 1600 rate)) by lia; reflexivity|]. cbn match.
  eapply runs_if; [csimpl; rewrite H8; reflexivity|]. cbn match. destruct q as [b o].
  apply runs_seq. eapply runs_memset; [csimpl; reflexivity|csimpl; apply (pts_valid _ _ _ _ _ _ Pq); [lia|lia|apply Nat.mod_1_r]|]. csimpl.
  destruct (wrmem_part (nx y) (mm y) (b, o) s 0 (zeros 200) Pq) as (P1 & C1 & _); [rewrite length_zeros; lia|discriminate|].
  rewrite firstn_O, Nat.add_0_l, length_zeros, (skipn_all2 s), app_nil_r in P1 by lia. cbn [app fst snd] in P1, C1. rewrite Nat.add_0_r in P1, C1. rewrite Ls in C1.
  apply runs_seq, runs_iset. apply runs_seq, runs_iset. apply runs_seq, runs_iset. apply runs_iset. csimpl.
  apply HQ; csimpl; try reflexivity; [exact P1|exact C1].
Qed.

Lemma div8 a : a * 8 / 8 = a.
Proof. apply Nat.div_mul. lia. Qed.

Lemma runs_HashUpdate y A D RC e q qd qr p rate data (Q : state -> Prop) : iv y 0 = rate -> iv y 1 = snd p -> iv y 2 = 0 -> ieval (iv y) e = length data ->
  peval (iv y) (pv y) A = Some q -> peval (iv y) (pv y) D = Some qd -> pv y RC = [qr] ->
  0 < rate / 8 <= 200 -> bytes_ok data -> wfs (fst p) -> snd p < rate / 8 -> pts (nx y) (mm y) q (fst p) -> pts (nx y) (mm y) qd data -> pts (nx y) (mm y) qr rc_bytes ->
  snd q mod 8 = 0 -> snd qr mod 8 = 0 -> disj q 200 qd (length data) -> disj q 200 qr 192 ->
  (forall m' c' i', let p' := fold_left (absorb1 (rate / 8)) data p in i' 0 = rate -> i' 1 = snd p' -> i' 2 = 0 -> i' 11 = iv y 11 -> pts (nx y) m' q (fst p') -> chg (nx y) (mm y) m' [(q, 200)] ->
     Q (mkState i' (dv y) (pv y) m' (nx y) c')) ->
  runs U (c_HashUpdate A D RC e) y Q.
Proof.
  intros I0 I1 I2 Ie Hq Hd Hr R Bd W K Pq Pd Pr Aq Ar Dd Dr HQ. unfold c_HashUpdate. apply runs_seq.
  eapply (runs_SpongeAbsorb U HU y _ _ _ q qd qr (fst p) (snd p) rate data); try eassumption.
  - csimpl. rewrite I0, I1, I2, Ie, div8. reflexivity.
  - cbn [pargevals pargeval pevals]. rewrite Hq, Hd, Hr. reflexivity.
  - cbv zeta. rewrite <- surjective_pairing. intros m' c' i' E1 E8 P1 C1. apply runs_report; [csimpl; exact E8|]. apply HQ; csimpl; auto.
Qed.

Lemma runs_HashFinal y A RC q qr p rate (Q : state -> Prop) : iv y 0 = rate -> iv y 1 = snd p -> iv y 2 = 0 ->
  peval (iv y) (pv y) A = Some q -> pv y RC = [qr] ->
  0 < rate / 8 <= 200 -> wfs (fst p) -> snd p < rate / 8 -> pts (nx y) (mm y) q (fst p) -> pts (nx y) (mm y) qr rc_bytes ->
  snd q mod 8 = 0 -> snd qr mod 8 = 0 -> disj q 200 qr 192 ->
  (forall m' c' i', i' 0 = rate -> i' 1 = 0 -> i' 2 = 1 -> i' 11 = iv y 11 -> pts (nx y) m' q (fst (fold_left (absorb1 (rate / 8)) (pad_tail (rate / 8) (snd p)) p)) -> chg (nx y) (mm y) m' [(q, 200)] ->
     Q (mkState i' (dv y) (pv y) m' (nx y) c')) ->
  runs U (c_HashFinal A RC) y Q.
Proof.
  intros I0 I1 I2 Hq Hr R W K Pq Pr Aq Ar Dr HQ. unfold c_HashFinal. apply runs_seq.
  eapply (runs_LastFewBits U HU y _ _ _ q qr (fst p) (snd p) rate); try eassumption.
  - csimpl. rewrite I0, I1, I2. reflexivity.
  - cbn [pargevals pargeval pevals]. rewrite Hq, Hr. reflexivity.
  - rewrite <- surjective_pairing. intros m' c' i' E1 E2 E8 P1 C1. apply runs_report; [csimpl; exact E8|]. apply HQ; csimpl; auto.
Qed.

Lemma runs_HashSqueeze y A D RC e q qd qr p rate d (Q : state -> Prop) : iv y 0 = rate -> iv y 1 = snd p -> iv y 2 = 1 -> ieval (iv y) e = length d ->
  peval (iv y) (pv y) A = Some q -> peval (iv y) (pv y) D = Some qd -> pv y RC = [qr] ->
  0 < rate / 8 <= 200 -> wfs (fst p) -> snd p <= rate / 8 -> pts (nx y) (mm y) q (fst p) -> pts (nx y) (mm y) qd d -> pts (nx y) (mm y) qr rc_bytes ->
  snd q mod 8 = 0 -> snd qr mod 8 = 0 -> disj q 200 qd (length d) -> disj q 200 qr 192 -> disj qd (length d) qr 192 ->
  (forall m' c' i', let x := sqn (rate / 8) (length d) p in i' 0 = rate -> i' 1 = snd (snd x) -> i' 2 = 1 -> i' 11 = iv y 11 -> pts (nx y) m' q (fst (snd x)) -> pts (nx y) m' qd (fst x) ->
     chg (nx y) (mm y) m' [(q, 200); (qd, length d)] -> Q (mkState i' (dv y) (pv y) m' (nx y) c')) ->
  runs U (c_HashSqueeze A D RC e) y Q.
Proof.
  intros I0 I1 I2 Ie Hq Hd Hr R W K Pq Pd Pr Aq Ar Dd Dr Ddr HQ. unfold c_HashSqueeze. apply runs_seq.
  eapply (runs_SpongeSqueeze U HU y _ _ _ q qd qr p rate d); try eassumption.
  - csimpl. rewrite I0, I1, I2, Ie, div8. reflexivity.
  - cbn [pargevals pargeval pevals]. rewrite Hq, Hd, Hr. reflexivity.
  - cbv zeta. intros m' c' i' E1 E2 E8 P1 P2 C1. apply runs_report; [csimpl; exact E8|]. apply HQ; csimpl; auto.
Qed.

(** ** A session *)
Section Session.
Variables (st : state) (q qr : ptr) (rate : nat).
Notation n := (nx st).
Notation m0 := (mm st).
Notation r := (rate / 8).
Hypothesis Hr : 0 < r <= 200.
Hypothesis V0 : pv st 0 = [q].
Hypothesis V1 : pv st 1 = [qr].
Hypothesis Aq : snd q mod 8 = 0.
Hypothesis Ar : snd qr mod 8 = 0.
Hypothesis Pr : pts n m0 qr rc_bytes.
Hypothesis Dr : disj q 200 qr 192.

Definition absorbed_to (D : bytes) : bytes * nat := fold_left (absorb1 r) D (zeros 200, 0).

Record hA (D : bytes) (z : state) : Prop := {
  a0 : iv z 0 = rate; a1 : iv z 1 = snd (absorbed_to D); a2 : iv z 2 = 0; a11 : iv z 11 = iv st 11;
  ap : forall a, pv z a = pv st a; ad : dv z = dv st; an : nx z = n;
  aq : pts n (mm z) q (fst (absorbed_to D)); ac : chg n m0 (mm z) [(q, 200)]
}.

Lemma updates_run ins : forall pre D z, hA D z -> bytes_ok D -> pv st 2 = map fst (pre ++ ins) ->
  Forall (fun x => pts n m0 (fst x) (snd x) /\ bytes_ok (snd x) /\ short (snd x) /\ disj q 200 (fst x) (length (snd x))) ins ->
  runs U (c_updates (length pre) (map (fun x => length (snd x)) ins)) z (hA (D ++ concat (map snd ins))).
Proof.
  induction ins as [|[qd c] ins IH]; intros pre D z H BD V2 HI; cbn [c_updates map concat].
  - apply runs_skip. rewrite app_nil_r. exact H.
  - inversion HI as [|? ? (P1 & B1 & _ & D1) HI']. subst. cbn [fst snd] in *. pose proof H as [H0 H1 H2 H11 Hp Hd Hn Hq Hc].
    destruct (absorbing_wf r D Hr BD) as [W K]. apply runs_seq.
    eapply (runs_HashUpdate z _ _ _ _ q qd qr (absorbed_to D) rate c); rewrite ?Hn; try eassumption.
    + reflexivity.
    + csimpl. rewrite Hp, V0. reflexivity.
    + csimpl. rewrite Hp, V2, map_app. rewrite nth_error_app2 by (rewrite map_length; lia). rewrite map_length, Nat.sub_diag. reflexivity.
    + rewrite Hp. exact V1.
    + apply (pts_chg1 _ _ _ _ _ _ _ Hc P1 D1).
    + apply (pts_chg1 _ _ _ _ _ _ _ Hc Pr Dr).
    + cbv zeta. intros m' c' i' E0 E1 E2 E11 Q1 C1.
      replace (S (length pre)) with (length (pre ++ [(qd, c)])) by (rewrite app_length; cbn; lia).
      rewrite app_assoc. apply IH.
      * assert (X : absorbed_to (D ++ c) = fold_left (absorb1 r) c (absorbed_to D)) by (unfold absorbed_to; rewrite fold_left_app; reflexivity).
        split; rewrite ?X; csimpl; auto; [congruence|exact (chg1_trans _ _ _ _ _ Hc C1)].
      * apply bytes_ok_app; auto.
      * rewrite <- app_assoc. exact V2.
      * exact HI'.
Qed.

Record hS (p : bytes * nat) (rs : list (ptr * nat)) (z : state) : Prop := {
  s0 : iv z 0 = rate; s1 : iv z 1 = snd p; s2 : iv z 2 = 1; s11 : iv z 11 = iv st 11;
  sp : forall a, pv z a = pv st a; sd : dv z = dv st; sn : nx z = n;
  sq : pts n (mm z) q (fst p); sc : chg n m0 (mm z) ((q, 200) :: rs)
}.

Definition room (x : ptr * bytes) : ptr * nat := (fst x, length (snd x)).
Lemma squeezes_run outs : forall pre ds p z, hS p (map room pre) z -> wfs (fst p) -> snd p <= r -> pv st 3 = map fst (pre ++ outs) ->
  Forall2 (fun x d => length d = length (snd x) /\ pts n (mm z) (fst x) d) pre ds ->
  Forall (fun x => pts n m0 (fst x) (snd x) /\ short (snd x) /\ disj q 200 (fst x) (length (snd x)) /\ disj (fst x) (length (snd x)) qr 192) (pre ++ outs) ->
  ForallOrdPairs (fun x y => disj (fst x) (length (snd x)) (fst y) (length (snd y))) (pre ++ outs) ->
  runs U (c_squeezes (length pre) (map (fun x => length (snd x)) outs)) z
    (fun w => exists p', hS p' (map room (pre ++ outs)) w /\
      Forall2 (fun x d => length d = length (snd x) /\ pts n (mm w) (fst x) d) (pre ++ outs)
        (ds ++ pieces (fst (sqn r (list_sum (map (fun x => length (snd x)) outs)) p)) (map (fun x => length (snd x)) outs))).
Proof.
  induction outs as [|[qd d] outs IH]; intros pre ds p z H W K V3 HF HI HD; cbn [c_squeezes map pieces list_sum fold_right].
  - apply runs_skip. exists p. rewrite !app_nil_r. auto.
  - pose proof H as [H0 H1 H2 H11 Hp Hd Hn Hq Hc]. cbn [fst snd] in *. apply runs_seq.
    pose proof HI as HI0. apply Forall_app in HI0. destruct HI0 as [HIp HIo]. inversion HIo as [|? ? (P1 & _ & D1 & D2) HI']. subst. cbn [fst snd] in *.
    assert (HDp : forall x, In x pre -> disj (fst x) (length (snd x)) qd (length d)).
    { intros x Hx. clear - HD Hx. induction pre as [|y pre IHp]; [destruct Hx|]. cbn [app] in HD. inversion HD as [|? ? A B]. subst. destruct Hx as [->|Hx].
      - rewrite Forall_forall in A. apply (A (qd, d)). apply in_or_app. right. left. reflexivity.
      - apply IHp; assumption. }
    eapply (runs_HashSqueeze z _ _ _ _ q qd qr p rate d); rewrite ?Hn; try eassumption.
    + reflexivity.
    + csimpl. rewrite Hp, V0. reflexivity.
    + csimpl. rewrite Hp, V3, map_app. rewrite nth_error_app2 by (rewrite map_length; lia). rewrite map_length, Nat.sub_diag. reflexivity.
    + rewrite Hp. exact V1.
    + apply (pts_chg _ _ _ _ _ _ Hc P1). intros a b [E|E]; [injection E as <- <-; exact D1|]. apply in_map_iff in E. destruct E as (x & E & Hx). injection E as <- <-. apply HDp, Hx.
    + apply (pts_chg _ _ _ _ _ _ Hc Pr). intros a b [E|E]; [injection E as <- <-; exact Dr|]. apply in_map_iff in E. destruct E as (x & E & Hx). injection E as <- <-. rewrite Forall_forall in HIp. apply (HIp x Hx).
    + cbv zeta. intros m' c' i' E0 E1 E2 E11 Q1 Q2 C1.
      replace (S (length pre)) with (length (pre ++ [(qd, d)])) by (rewrite app_length; cbn; lia).
      set (x := sqn r (length d) p) in *. destruct (sqn_wf r (length d) Hr p W K) as [W' K'].
      replace (pre ++ (qd, d) :: outs) with ((pre ++ [(qd, d)]) ++ outs) in * by (rewrite <- app_assoc; reflexivity).
      eapply runs_mono; [apply (IH (pre ++ [(qd, d)]) (ds ++ [fst x]) (snd x))|].
      * split; csimpl; auto; [congruence|]. eapply chg_trans; [exact Hc|exact C1| |].
        { intros y [<-|Hy]; [left; reflexivity|right]. rewrite map_app. apply in_or_app. left. exact Hy. }
        { intros y [<-|[<-|[]]]; [left; reflexivity|right]. rewrite map_app. apply in_or_app. right. left. reflexivity. }
      * exact W'.
      * exact K'.
      * exact V3.
      * apply Forall2_app.
        { clear - HF C1 HDp HIp. induction HF as [|y e pre ds [L1 Q] HF IHF]; constructor.
          - split; [exact L1|]. apply (pts_chg _ _ _ _ _ _ C1 Q). rewrite L1. intros a b [E|[E|[]]]; injection E as <- <-.
            + inversion HIp as [|? ? (_ & _ & X & _) _]. exact X.
            + apply disj_sym, HDp. left. reflexivity.
          - apply IHF; [inversion HIp; assumption|]. intros w Hw. apply HDp. right. exact Hw. }
        { constructor; [|constructor]. cbn [fst snd]. split; [apply length_sqn|exact Q2]. }
      * exact HI.
      * exact HD.
      * intros w (p' & Hw & HF'). exists p'. split; [exact Hw|].
        match type of HF' with Forall2 _ _ ?a => match goal with |- Forall2 _ _ ?b => replace b with a; [exact HF'|] end end.
        rewrite <- (app_assoc ds). f_equal. fold (list_sum (map (fun x => length (snd x)) outs)). rewrite sqn_add. fold x. cbn [fst].
        assert (Lx : length (fst x) = length d) by apply length_sqn.
        rewrite firstn_app, Lx, Nat.sub_diag, firstn_O, app_nil_r, firstn_all2 by lia. rewrite skipn_app, Lx, Nat.sub_diag, (skipn_all2 (fst x)) by lia. reflexivity.
Qed.
End Session.

Lemma init_run b prefix st q qr s : pv st 0 = [q] -> pv st 1 = [qr] -> snd q mod 8 = 0 -> snd qr mod 8 = 0 -> pts (nx st) (mm st) qr rc_bytes -> disj q 200 qr 192 ->
  pts (nx st) (mm st) q s -> length s = 200 -> match prefix with Some b => byte b | None => True end ->
  runs U (c_HashInit b prefix (P0 0) 1 4) st (hA st q (if b then 1344 else 1088) (prefix_bytes prefix)).
Proof.
  intros V0 V1 Aq Ar Pr Dr Pq Ls Hb. set (rate := if b then 1344 else 1088). assert (Hr : 1 < rate / 8 <= 200) by (unfold rate; destruct b; cbn; lia).
  unfold c_HashInit. apply runs_seq.
  assert (X : runs U (if b then c_HashInitialize (P0 0) 1344 256 else c_HashInitialize (P0 0) 1088 512) st (hA st q rate [])).
  { assert (Y : forall rate' cap, rate' = rate -> rate' + cap = 1600 -> rate' mod 8 = 0 -> runs U (c_HashInitialize (P0 0) rate' cap) st (hA st q rate [])).
    { intros rate' cap -> E1 E2. eapply (runs_HashInitialize st _ q s rate cap); [csimpl; rewrite V0; reflexivity|exact Pq|exact Ls|exact E1|unfold rate; destruct b; lia|exact E2|].
      intros m' c' i' I0 I1 I2 I11 P1 C1. split; auto. }
    unfold rate. destruct b; apply Y; reflexivity. }
  eapply runs_mono; [exact X|]. intros z Hz. destruct prefix as [x|]; cbn [prefix_bytes]; [|apply runs_skip; exact Hz].
  destruct Hz as [H0 H1 H2 H11 Hp Hd Hn Hq Hc]. apply runs_loc. csimpl. rewrite Hn. destruct (HU (ct z) 1) as [LU BU].
  set (V := U (ct z) 1) in *. assert (HV : V = [nth 0 V 0%N]) by (destruct V as [|v [|]]; cbn in LU; try discriminate; reflexivity).
  set (m1 := upd (mm z) (nx st) V). assert (Q1 : pts (S (nx st)) m1 (nx st, 0) V) by apply pts_local.
  apply runs_seq. eapply (runs_st1 U _ _ _ (nx st, 0) V 0); [csimpl; exact Q1|lia|csimpl; reflexivity|]. csimpl. rewrite LU. intros m2 Q2 C2.
  rewrite N.mod_small in Q2 by exact Hb. rewrite HV in Q2. cbn [list_set] in Q2.
  assert (Nq : fst q < nx st) by apply Pq. assert (Nr : fst qr < nx st) by apply Pr.
  assert (Dl : forall p k l, fst p < nx st -> disj (nx st, 0) k p l) by (intros p k l Hp'; left; cbn [fst]; lia).
  assert (Pr1 : pts (nx st) (mm z) qr rc_bytes) by (apply (pts_chg1 _ _ _ _ _ _ _ Hc Pr Dr)).
  assert (Q2q : pts (S (nx st)) m2 q (zeros 200)) by (apply (pts_chg1 _ _ _ _ _ _ _ C2); [apply pts_new; exact Hq|apply Dl; exact Nq]).
  eapply (runs_HashUpdate _ _ _ _ _ q (nx st, 0) qr (zeros 200, 0) rate [x]); csimpl; try eassumption.
  - reflexivity.
  - rewrite Hp, V0. reflexivity.
  - reflexivity.
  - rewrite Hp. exact V1.
  - lia.
  - repeat constructor. exact Hb.
  - apply wfs_zeros.
  - lia.
  - apply (pts_chg1 _ _ _ _ _ _ _ C2); [apply pts_new; exact Pr1|apply Dl; exact Nr].
  - apply disj_sym, Dl, Nq.
  - cbv zeta. intros m' c' i' I0 I1 I2 I11 P1 C1.
    assert (C3 : chg (S (nx st)) m1 m' [(q, 200); ((nx st, 0), 1)]).
    { eapply chg_trans; [exact C2|exact C1|intros y [<-|[]]; right; left; reflexivity|intros y [<-|[]]; left; reflexivity]. }
    split; csimpl; auto.
    + congruence.
    + intros a. unfold upd. destruct (Nat.eqb_spec a 4) as [->|_]; apply Hp.
    + apply pts_drop; [exact P1|exact Nq].
    + apply (chg1_trans _ _ _ _ _ Hc). apply (chg_local _ _ _ _ _ _ C3). intros y [<-|[<-|[]]] Hy; [left; reflexivity|cbn in Hy; lia].
Qed.

Lemma hash_code P prefix st q qr ins outs : match prefix with Some b => byte b | None => True end -> hash_call st q qr ins outs ->
  let lens := map (fun x => length (snd x)) in
  exists st' t, run U (c_hash (use_shake128 P) prefix (lens ins) (lens outs)) st = Some (st', t) /\
    Forall2 (fun x d => length d = length (snd x) /\ pts (nx st) (mm st') (fst x) d) outs
      (pieces (shake (use_shake128 P) (prefix_bytes prefix ++ concat (map snd ins)) (list_sum (lens outs))) (lens outs)) /\
    chg (nx st) (mm st) (mm st') ((q, 200) :: map (fun x => (fst x, length (snd x))) outs) /\
    iv st' 11 = iv st 11 /\ dv st' = dv st /\ (forall a, pv st' a = pv st a) /\ nx st' = nx st.
Proof.
  intros Hb [(V0 & Aq & s & Ls & Pq) (V1 & Ar & Pr & Dr) (V2 & HI) (V3 & HO) HD] lens.
  change round_constant_bytes with rc_bytes in Pr. pose proof (rate_bytes_ok P) as Hr.
  set (rate := if use_shake128 P then 1344 else 1088). assert (Er : rate / 8 = rate_bytes P) by (unfold rate, rate_bytes; destruct (use_shake128 P); reflexivity).
  assert (HB : bytes_ok (prefix_bytes prefix)) by (destruct prefix as [b|]; [repeat constructor; exact Hb|constructor]).
  assert (HC : bytes_ok (concat (map snd ins))) by (apply bytes_ok_concat; apply Forall_map; revert HI; apply Forall_impl; intros x Hx; apply Hx).
  set (D := prefix_bytes prefix ++ concat (map snd ins)). assert (BD : bytes_ok D) by (apply bytes_ok_app; auto).
  assert (Hr' : 0 < rate / 8 <= 200) by (rewrite Er; exact Hr).
  assert (R : runs U (c_hash (use_shake128 P) prefix (lens ins) (lens outs)) st (fun w => exists p', hS st q rate p' (map room outs) w /\
    Forall2 (fun x d => length d = length (snd x) /\ pts (nx st) (mm w) (fst x) d) outs
      (pieces (fst (sqn (rate / 8) (list_sum (lens outs)) (final_state (rate / 8) D, 0))) (lens outs)))).
  { unfold c_hash. apply runs_seq. eapply runs_mono; [apply (init_run (use_shake128 P) prefix st q qr s); assumption|]. fold rate. intros z1 H1.
    apply runs_seq. eapply runs_mono; [apply (updates_run st q qr rate Hr' V0 V1 Aq Ar Pr Dr ins [] (prefix_bytes prefix) z1 H1 HB V2 HI)|]. fold D. intros z2 [I0 I1 I2 I11 Ip Id In_ Iq Ic].
    destruct (absorbing_wf (rate / 8) D Hr' BD) as [W K]. apply runs_seq.
    eapply (runs_HashFinal z2 _ _ q qr (absorbed_to rate D) rate); rewrite ?In_; try eassumption.
    - csimpl. rewrite Ip, V0. reflexivity.
    - rewrite Ip. exact V1.
    - apply (pts_chg1 _ _ _ _ _ _ _ Ic Pr Dr).
    - intros m' c' i' J0 J1 J2 J11 P1 C1.
      assert (EF : fst (fold_left (absorb1 (rate / 8)) (pad_tail (rate / 8) (snd (absorbed_to rate D))) (absorbed_to rate D)) = final_state (rate / 8) D).
      { unfold final_state, absorbed_to. rewrite fold_left_app. rewrite absorb_pos by (cbn; lia). reflexivity. }
      rewrite EF in P1. destruct (final_state_ok (rate / 8) D Hr' BD) as [WF _].
      eapply runs_mono; [apply (squeezes_run st q qr rate Hr' V0 V1 Aq Ar Pr Dr outs [] [] (final_state (rate / 8) D, 0))|].
      + split; csimpl; auto; [congruence|]. exact (chg1_trans _ _ _ _ _ Ic C1).
      + exact WF.
      + cbn [snd]. lia.
      + exact V3.
      + constructor.
      + exact HO.
      + exact HD.
      + intros w Hw. exact Hw. }
  unfold runs in R. destruct (run U _ st) as [[y t]|]; [|contradiction]. destruct R as (p' & [S0 S1 S2 S11 Sp Sd Sn Sq Sc] & F).
  exists y, t. split; [reflexivity|]. split; [|split; [exact Sc|auto]]. rewrite shake_sqn by exact BD. rewrite <- Er. exact F.
Qed.
End M.

Lemma updates_shows l : forall i, shows_nothing (c_updates i l) = true.
Proof. induction l as [|x l IH]; intros i; [reflexivity|]. cbn [c_updates]. change (shows_nothing (c_HashUpdate (P0 0) (PV 2 (IC i)) 1 (IC x)) && shows_nothing (c_updates (S i) l) = true). rewrite IH. reflexivity. Qed.
Lemma squeezes_shows l : forall i, shows_nothing (c_squeezes i l) = true.
Proof. induction l as [|x l IH]; intros i; [reflexivity|]. cbn [c_squeezes]. change (shows_nothing (c_HashSqueeze (P0 0) (PV 3 (IC i)) 1 (IC x)) && shows_nothing (c_squeezes (S i) l) = true). rewrite IH. reflexivity. Qed.
Lemma hash_shows b prefix ins outs : shows_nothing (c_hash b prefix ins outs) = true.
Proof.
  unfold c_hash. change (shows_nothing (c_HashInit b prefix (P0 0) 1 4) && (shows_nothing (c_updates 0 ins) && (shows_nothing (c_HashFinal (P0 0) 1) && shows_nothing (c_squeezes 0 outs))) = true).
  rewrite updates_shows, squeezes_shows. destruct b, prefix; reflexivity.
Qed.

Lemma hash_constant_time U U' b prefix ins outs x y : locals_ok U -> locals_ok U' -> same_public x y ->
  observed (run U (c_hash b prefix ins outs) x) = observed (run U' (c_hash b prefix ins outs) y).
Proof. intros. apply observed_same; auto. apply hash_shows. Qed.

(** The permutation alone. *)
Lemma Permute_code U st q qr s : locals_ok U -> pv st 0 = [q] -> pv st 1 = [qr] -> pts (nx st) (mm st) q s -> length s = 200 -> bytes_ok s ->
  snd q mod 8 = 0 -> pts (nx st) (mm st) qr round_constant_bytes -> snd qr mod 8 = 0 -> disj q 200 qr 192 ->
  exists st' t s', run U (c_Permute (P0 0) 1) st = Some (st', t) /\ pts (nx st) (mm st') q s' /\ length s' = 200 /\ bytes_ok s' /\
    bytes_bits s' = keccak_f (bytes_bits s) /\ chg (nx st) (mm st) (mm st') [(q, 200)] /\
    iv st' = iv st /\ dv st' = dv st /\ pv st' = pv st /\ nx st' = nx st.
Proof.
  intros HU V0 V1 Pq Ls Bs Aq Pr Ar Dr. destruct (permute_eq s (conj Ls Bs)) as (E & [L' B'] & Hk).
  assert (R : runs U (c_Permute (P0 0) 1) st (fun y => exists m' c', y = set_mc st m' c' /\ pts (nx st) m' q (Fp s) /\ chg (nx st) (mm st) m' [(q, 200)])).
  { eapply (runs_Permute U _ _ _ q qr s); try eassumption; [csimpl; rewrite V0; reflexivity|split; assumption|]. intros m' c' P1 C1. exists m', c'. auto. }
  unfold runs in R. destruct (run U _ st) as [[y t]|]; [|contradiction]. destruct R as (m' & c' & -> & P1 & C1).
  exists (set_mc st m' c'), t, (Fp s). split; [reflexivity|]. repeat (split; [assumption|]). repeat split.
Qed.
