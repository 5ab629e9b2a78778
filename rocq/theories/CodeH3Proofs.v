(** The challenge of ZKB++ on memory with pointers: setChallenge, getChallenge, H3. *)

From Coq Require Import List NArith Arith Bool Lia ZifyBool ZifyNat ZifyN.
From Verif Require Import Base Params Env Spec LowMC Picnic1 MiniC CodeLowMC CodeZkb CodeKeccak CodeP3 CodeSpec HashSpec CodeKeccakSpec CodeHashUses CodeHashUsesSpec CodeSign CodeVerRound CodeVerAll
  ApiSpec BaseFacts ParamFacts LowMCFacts ZkbChal HashProofs P3Round
  MiniCFacts CodeRules CodeLowMCProofs CodeHeap CodeZkbMpc CodeP3Proofs CodeP3Lin CodeP3Sim CodeHashUsesProofs CodeHashUsesTop CodeSignRules CodeSignProofs.
Import ListNotations.
Local Open Scope c_scope.

Lemma land1 x : N.land x 1 = b2n (N.eqb (N.land x 1) 1).
Proof. change 1%N with (N.ones 1). rewrite N.land_ones. change (2 ^ 1)%N with 2%N. pose proof (N.mod_upper_bound x 2 ltac:(lia)). assert (x mod 2 = 0 \/ x mod 2 = 1)%N as [->| ->] by lia; reflexivity. Qed.

Lemma b2n_256 v : (b2n v mod 256 = b2n v)%N.
Proof. destruct v; reflexivity. Qed.

Section Z.
Variables (n0 : nat) (m0 : memory) (U : nat -> nat -> bytes).
Notation heap := (heap n0 m0).
Notation ro := (ro n0 m0).
Notation at_ := (at_ n0 m0).
Variable L : layout.

Lemma h_setChallenge p i e y c k r (Q : state -> Prop) : peval (iv y) (pv y) p = Some (reg L k) -> k < cnt L -> 2 * ieval (iv y) i + 1 < 8 * sz L k ->
  heap L (nx y) (mm y) c -> setChallenge (c k) (ieval (iv y) i) (deval (iv y) (dv y) e) = Ok r ->
  (forall m', heap L (nx y) m' (cset c k r) -> Q (set_mm y m')) -> runs U (c_setChallenge p i e) y Q.
Proof.
  intros Ep Hk Hi H Hr HQ. unfold c_setChallenge. eapply runs_call; [cbn [pargevals pargeval pevals]; rewrite Ep; reflexivity|]. cbn [map].
  set (round := ieval (iv y) i) in *. set (t := deval (iv y) (dv y) e) in *. pose proof (heap_len _ _ _ _ _ _ H k Hk) as Lk. unfold setChallenge in Hr.
  rewrite setBit_ok in Hr by (apply lt_div8; lia). cbn [bind] in Hr. rewrite setBit_ok in Hr by (apply lt_div8; rewrite length_set_bit; lia). injection Hr as <-.
  unfold setChallenge_body. apply runs_seq. eapply (h_setBit n0 m0 U L _ _ _ _ c k (N.eqb (N.land t 1) 1)); csimpl; [exact H|exact Hk|reflexivity|lia| |].
  { cbn [deval dop_eval]. csimpl. rewrite land1 at 1. apply b2n_256. }
  intros m1 H1. eapply (h_setBit n0 m0 U L _ _ _ _ _ k (N.eqb (N.land (N.shiftr t 1) 1) 1)); csimpl; [exact H1|exact Hk|reflexivity|lia| |].
  { unfold set_mm. csimpl. cbn [deval dop_eval]. csimpl. cbn [ieval]. change (N.of_nat 1) with 1%N. rewrite land1 at 1. apply b2n_256. }
  intros m2 H2. unfold set_mm in *. cbn [iv dv pv mm nx ct copy_back] in *. apply HQ. apply (heap_ext _ _ _ _ _ _ _ H2).
  intros j Hj. unfold cset. destruct (Nat.eqb_spec j k) as [->|]; [|reflexivity]. rewrite Nat.eqb_refl. reflexivity.
Qed.

Lemma h_getChallenge x p i y c q l ch (Q : state -> Prop) : peval (iv y) (pv y) p = Some q -> at_ L c q l ->
  heap L (nx y) (mm y) c -> getChallenge l (ieval (iv y) i) = Ok ch -> 2 * ieval (iv y) i + 1 < 8 * length l ->
  (forall u, Q (mkState (upd (iv y) x ch) (dv y) (pv y) (mm y) (nx y) u)) -> runs U (c_getChallenge x p i) y Q.
Proof.
  intros Ep A H Hr Hl HQ. unfold c_getChallenge. eapply runs_call; [cbn [pargevals pargeval pevals]; rewrite Ep; reflexivity|]. cbn [map].
  set (round := ieval (iv y) i) in *. rewrite getChallenge_ok in Hr by exact Hl. injection Hr as <-. pose proof (at_pts n0 m0 L _ _ _ _ _ H A) as Hq.
  unfold getChallenge_body. apply runs_seq. apply (runs_getBit U _ _ _ _ q l); csimpl; [reflexivity|exact Hq|apply lt_div8; lia|].
  apply runs_seq. apply (runs_getBit U _ _ _ _ q l); csimpl; [reflexivity|exact Hq|apply lt_div8; lia|].
  apply runs_toi. unfold set_dv, set_iv. cbn [iv dv pv mm nx ct copy_back upd Nat.eqb]. 
  assert (V : N.to_nat (deval (args 0 [round]) (upd (upd (args 0%N []) 0 (b2n (bit l (2 * round + 1)))) 1 (b2n (bit l (2 * round)))) (DCast 1 (DOp OOr (DShl (DV 0) (IC 1)) (DV 1)))) = chalv l round).
  { unfold chalv. destruct (bit l (2 * round + 1)), (bit l (2 * round)); reflexivity. }
  rewrite V. apply HQ.
Qed.

Variables (E : env) (P : paramset).
Let T := numMPCRounds P.
Let dB := digestSizeBytes P.
Variables (kc kh : nat).
Hypotheses (Kc : kc < cnt L) (Kh : kh < cnt L) (Kn : kc <> kh) (Sc : 2 * T <= 8 * sz L kc) (Sh : sz L kh = dB).

(** A pass over some pairs of bits, from [y] to [z]. *)
Definition after (y : state) (c : nat -> bytes) (pairs : list N) (z : state) : Prop :=
  exists chal' r' (d : bool), H3_scan P pairs (c kc) (iv y 4) = Ok (chal', r', d) /\ heap L (nx y) (mm z) (cset c kc chal') /\
    iv z 4 = r' /\ iv z 5 = (if d then 1 else 0) /\ (d = false -> r' < T) /\ pv z = pv y /\ nx z = nx y.

Lemma H3_scan_app a b : forall c r, H3_scan P (a ++ b) c r = bind (H3_scan P a c r) (fun '(c', r', d) => if (d : bool) then Ok (c', r', true) else H3_scan P b c' r').
Proof.
  induction a as [|p a IH]; intros c r; [reflexivity|]. cbn [app H3_scan]. destruct (N.ltb p 3); [|apply IH].
  destruct (setChallenge c r p) as [c1| | |]; [|reflexivity|reflexivity|reflexivity]. cbn [bind]. destruct (S r =? numMPCRounds P); [reflexivity|apply IH].
Qed.

Lemma after_nil y c : heap L (nx y) (mm y) c -> iv y 4 < T -> iv y 5 = 0 -> after y c [] y.
Proof.
  intros H A B. exists (c kc), (iv y 4), false. split; [reflexivity|]. split; [|auto 7].
  apply (heap_ext _ _ _ _ _ _ _ H). intros j Hj. unfold cset. destruct (Nat.eqb_spec j kc) as [->|]; reflexivity.
Qed.
Lemma after_stop y c a b z : after y c a z -> iv z 5 <> 0 -> after y c (a ++ b) z.
Proof.
  intros (c1 & r1 & d & A & B & C & D & F) N. assert (d = true) as -> by (destruct d; [reflexivity|congruence]).
  exists c1, r1, true. rewrite H3_scan_app, A. cbn [bind]. auto 7.
Qed.
Lemma after_more y c a b z : after y c a z -> iv z 5 = 0 -> exists c', heap L (nx z) (mm z) c' /\ (forall j, j <> kc -> c' j = c j) /\ iv z 4 < T /\ pv z = pv y /\ nx z = nx y /\
  forall w, after z c' b w -> after y c (a ++ b) w.
Proof.
  intros (c1 & r1 & d & A & B & C & D & F & G1 & G2) N. assert (d = false) as -> by (destruct d; [congruence|reflexivity]). specialize (F eq_refl).
  exists (cset c kc c1). rewrite G2. split; [exact B|]. split; [intros j Hj; apply cset_neq, Hj|]. split; [lia|]. split; [exact G1|]. split; [reflexivity|].
  intros w (c2 & r2 & d2 & A2 & B2 & C2 & D2 & F2 & H2 & I2). exists c2, r2, d2. rewrite H3_scan_app, A. cbn [bind]. rewrite cset_eq, C in A2. split; [exact A2|].
  split; [rewrite G2 in B2; apply (heap_ext _ _ _ _ _ _ _ B2); intros j Hj; unfold cset; destruct (j =? kc); reflexivity|]. repeat (split; [assumption|]). split; congruence.
Qed.

Lemma h_pair j y c : heap L (nx y) (mm y) c -> iv y 4 < T -> iv y 5 = 0 -> pv y 11 = [reg L kc] ->
  runs U (c_pair P j) y (fun z => after y c [N.land (N.shiftr (dv y 0) (N.of_nat (6 - j))) 3] z /\ dv z 0 = dv y 0).
Proof.
  intros H Hr H5 E11. unfold c_pair. set (t := N.land (N.shiftr (dv y 0) (N.of_nat (6 - j))) 3).
  assert (Ht : (t < 4)%N) by (unfold t; change 3%N with (N.ones 2); rewrite N.land_ones; apply N.mod_upper_bound; discriminate).
  apply runs_seq, runs_dset. apply runs_seq, runs_toi. unfold set_dv, set_iv. cbn [iv dv pv mm nx ct].
  assert (V : deval (iv y) (dv y) (DCast 1 (DOp OAnd (DShr (DV 0) (IC (6 - j))) (DC 3))) = t).
  { cbn [deval dop_eval ieval]. fold t. apply N.mod_small. change (wmod 1) with 256%N. lia. }
  rewrite V. set (y1 := mkState _ _ _ _ _ _). assert (I4 : iv y1 4 = iv y 4) by reflexivity. assert (I5 : iv y1 5 = iv y 5) by reflexivity. assert (D0 : dv y1 0 = dv y 0) by reflexivity.
  eapply runs_if; [reflexivity|]. cbn [y1 iv ieval]. rewrite upd_eq. cbn [deval]. rewrite upd_eq.
  replace (N.to_nat t <? 3) with (N.ltb t 3) by (destruct (N.ltb_spec t 3), (Nat.ltb_spec (N.to_nat t) 3); lia || reflexivity).
  destruct (N.ltb t 3) eqn:Et.
  - pose proof (heap_len _ _ _ _ _ _ H kc Kc) as Lc. assert (Es : exists r, setChallenge (c kc) (iv y 4) t = Ok r).
    { unfold setChallenge. rewrite setBit_ok by (apply lt_div8; lia). cbn [bind]. rewrite setBit_ok by (apply lt_div8; rewrite length_set_bit; lia). eexists. reflexivity. }
    destruct Es as [r Es].
    apply runs_seq. apply (h_setChallenge (P0 11) (IV 4) (DV 1) y1 c kc r).
    + cbn [peval P0 ieval y1 pv]. rewrite E11. reflexivity.
    + exact Kc.
    + cbn [ieval]. rewrite I4. lia.
    + exact H.
    + cbn [ieval]. rewrite I4. exact Es.
    + intros m' H'. apply runs_seq, runs_iset. unfold set_mm, set_iv. cbn [iv dv pv mm nx ct ieval]. eapply runs_if; [reflexivity|]. cbn [iv ieval]. rewrite upd_eq, I4.
      destruct (Nat.eqb_spec (iv y 4 + 1) (numMPCRounds P)) as [Ed|Ed].
      * apply runs_iset. unfold set_iv. cbn [iv dv pv mm nx ct ieval]. split; [|reflexivity]. exists r, (S (iv y 4)), true. cbn [H3_scan]. rewrite Et, Es. cbn [bind].
        rewrite (proj2 (Nat.eqb_eq _ _)) by lia. split; [reflexivity|]. split; [exact H'|]. split; [cbn [iv]; unfold upd; cbn [Nat.eqb]; lia|]. split; [reflexivity|]. split; [discriminate|]. split; reflexivity.
      * apply runs_skip. split; [|reflexivity]. exists r, (S (iv y 4)), false. cbn [H3_scan]. rewrite Et, Es. cbn [bind].
        rewrite (proj2 (Nat.eqb_neq _ _)) by lia. split; [reflexivity|]. split; [exact H'|]. split; [cbn [iv]; unfold upd; cbn [Nat.eqb]; lia|]. split; [exact H5|]. split; [intros _; unfold T in *; lia|]. split; reflexivity.
  - apply runs_skip. split; [|reflexivity]. exists (c kc), (iv y 4), false. cbn [H3_scan]. rewrite Et. split; [reflexivity|]. split; [|cbn; auto 7].
    apply (heap_ext _ _ _ _ _ _ _ H). intros i Hi. unfold cset. destruct (Nat.eqb_spec i kc) as [->|]; reflexivity.
Qed.

Lemma h_pairs js : forall y c, heap L (nx y) (mm y) c -> iv y 4 < T -> iv y 5 = 0 -> pv y 11 = [reg L kc] ->
  runs U (c_pairs P js) y (fun z => after y c (map (fun j => N.land (N.shiftr (dv y 0) (N.of_nat (6 - j))) 3) js) z).
Proof.
  induction js as [|j js IH]; intros y c H Hr H5 E11; [apply runs_skip, after_nil; auto|]. cbn [c_pairs map]. apply runs_seq.
  eapply runs_mono; [exact (h_pair j y c H Hr H5 E11)|]. intros z [A D]. cbn beta in A. set (t := N.land _ _) in *. change (t :: ?l) with ([t] ++ l).
  eapply runs_if; [reflexivity|]. cbn [ieval]. destruct (Nat.eqb_spec (iv z 5) 0) as [E0|E0].
  - destruct (after_more y c [t] (map (fun j => N.land (N.shiftr (dv y 0) (N.of_nat (6 - j))) 3) js) z A E0) as (c' & H' & _ & Hr' & Ep & En & X).
    eapply runs_mono; [apply (IH z c' H' Hr' E0); rewrite Ep; exact E11|]. intros w W. cbn beta in W. rewrite D in W. apply X, W.
  - apply runs_skip. apply (after_stop y c [t] _ z A E0).
Qed.

Lemma h_scan h is_ : Forall (fun i => i < dB) is_ -> forall y c, heap L (nx y) (mm y) c -> iv y 4 < T -> iv y 5 = 0 -> pv y 11 = [reg L kc] -> pv y 10 = [reg L kh] -> c kh = h ->
  runs U (c_scan P is_) y (fun z => after y c (flat_map (fun i => byte_pairs (nth i h 0%N)) is_) z).
Proof.
  intros Hi. induction Hi as [|i is_ Hi _ IH]; intros y c H Hr H5 E11 E10 Eh; [apply runs_skip, after_nil; auto|]. cbn [c_scan flat_map]. apply runs_seq.
  apply (h_ld1 n0 m0 U L 0 _ y c kh i (reg L kh)); [exact H|exact Kh|reflexivity| |lia|].
  { cbn [peval P0 ieval]. rewrite E10. cbn [nth_error]. destruct (reg L kh); reflexivity. }
  apply runs_seq. set (y1 := set_dv y _).
  eapply runs_mono; [apply (h_pairs [0; 2; 4; 6] y1 c H Hr H5 E11)|]. intros z A. cbn beta in A.
  assert (A' : after y c (byte_pairs (nth i h 0%N)) z).
  { replace (dv y1 0) with (nth i h 0%N) in A by (unfold y1, set_dv; cbn [dv]; rewrite upd_eq, Eh; reflexivity). exact A. }
  eapply runs_if; [reflexivity|]. cbn [ieval]. destruct (Nat.eqb_spec (iv z 5) 0) as [E0|E0].
  - destruct (after_more y c _ (flat_map (fun i => byte_pairs (nth i h 0%N)) is_) z A' E0) as (c' & H' & Hc & Hr' & Ep & En & X).
    eapply runs_mono; [apply (IH z c' H' Hr' E0); rewrite ?Ep; auto; rewrite Hc; auto|]. exact X.
  - apply runs_skip. apply (after_stop y c _ _ z A' E0).
Qed.
Lemma pairs_all h : length h = dB -> flat_map (fun i => byte_pairs (nth i h 0%N)) (seq 0 dB) = bit_pairs h.
Proof.
  intros <-. unfold bit_pairs. rewrite !flat_map_concat_map. f_equal. rewrite <- (map_map (fun i => nth i h 0%N) byte_pairs). f_equal. apply map_seq_nth.
Qed.

Notation Es := (with_shake E).
Hypotheses (HU : locals_ok U) (HB : (N.of_nat dB + 200 <= 2 ^ 32)%N) (HT : 0 < T).
Variable qr : ptr.
Hypotheses (Rr : ro L qr round_constant_bytes) (Ar : snd qr mod 8 = 0).

Lemma h_expand fuel : forall y c, heap L (nx y) (mm y) c -> iv y 4 < T -> iv y 5 = 0 -> pv y 0 = [qr] -> pv y 11 = [reg L kc] -> pv y 10 = [reg L kh] ->
  runs U (c_expand P fuel) y (fun z => exists c', heap L (nx y) (mm z) c' /\ (forall j, j <> kc -> j <> kh -> c' j = c j) /\ nx z = nx y /\
    match H3_loop Es P fuel (c kh) (c kc) (iv y 4) with Ok chal => iv z 5 = 1 /\ c' kc = chal | NoFuel => iv z 5 = 0 | _ => False end).
Proof.
  induction fuel as [|fuel IH]; intros y c H Hr H5 E0 E11 E10.
  - apply runs_skip. exists c. cbn [H3_loop]. auto.
  - cbn [c_expand H3_loop]. apply runs_seq. pose proof (heap_len _ _ _ _ _ _ H kh Kh) as Lh. rewrite Sh in Lh.
    assert (Fs : Forall (fun i => i < dB) (seq 0 dB)) by (apply Forall_forall; intros i Hi; apply in_seq in Hi; lia).
    eapply runs_mono; [exact (h_scan (c kh) (seq 0 dB) Fs y c H Hr H5 E11 E10 eq_refl)|].
    intros z A. cbn beta in A. rewrite (pairs_all (c kh) Lh) in A. destruct A as (chal' & r' & d & Ha & Hz & H4z & H5z & Hd & Hp & Hn). rewrite Ha. cbn [bind].
    eapply runs_if; [reflexivity|]. cbn [ieval]. rewrite H5z. destruct d; cbn [Nat.eqb].
    + apply runs_skip. exists (cset c kc chal'). split; [exact Hz|]. split; [intros j Hj _; apply cset_neq, Hj|]. split; [exact Hn|]. split; [exact H5z|apply cset_eq].
    + apply runs_seq. set (c1 := cset c kc chal') in *. assert (C1 : c1 kh = c kh) by (apply cset_neq; congruence). rewrite <- Hn in Hz.
      set (d := shake (use_shake128 P) (1%N :: c kh) dB).
      assert (Ld : length d = dB) by apply shake_ok.
      apply (h_leaves n0 m0 U L (c_rehash P) [PA 0; PL []; PL []; PA 10] [] [[qr]; []; []; [reg L kh]] z c1 kh d).
      * cbn [pargevals pargeval pevals]. rewrite Hp, E0, E10. reflexivity.
      * cbv zeta. set (z0 := mkState _ _ _ _ _ _).
        assert (Hh : CodeHashUsesSpec.holds z0 3 0 dB (c kh)).
        { exists (reg L kh). split; [reflexivity|]. pose proof (heap_pts _ _ _ _ _ _ Hz kh Kh) as X. rewrite C1 in X. split; [exact X|].
          split; [apply (heap_ok _ _ _ _ _ _ H kh Kh)|]. split; [lia|]. unfold short. rewrite Lh. exact HB. }
        assert (W : writes U (c_rehash P) z0 (reg L kh) d).
        { unfold d. replace (1%N :: c kh) with (prefix_bytes HASH_PREFIX_1 ++ concat [firstn dB (c kh)]) by (cbn [prefix_bytes HASH_PREFIX_1 concat app]; rewrite app_nil_r; f_equal; apply firstn_all2; lia).
          apply (single U HU P HASH_PREFIX_1 z0 qr); [reflexivity| |discriminate| |].
          - apply (z_constants z [[qr]; []; []; [reg L kh]] qr); auto. apply (heap_ro _ _ _ _ _ _ _ _ Hz Rr).
          - split; [reflexivity|]. split; [|rewrite <- Sh; apply (proj2 Rr kh Kh)]. exists (c1 kh). split; [rewrite C1; exact Lh|apply (heap_pts _ _ _ _ _ _ Hz kh Kh)].
          - intros w Hw. constructor; [|constructor]. apply item_holds; [discriminate|exact Hw|exact Hh]. }
        destruct W as (z' & t & R1 & R2). exists z', t. split; [exact R1|]. split; [exact R2|]. intros m' u Hm. cbn [copy_back].
        assert (Cb : blit_list (c1 kh) 0 d = d) by (rewrite C1; apply blit_list_all; lia).
        rewrite Cb in Hm. set (w := mkState _ _ _ _ _ _).
        assert (K1 : cset c1 kh d kh = d) by apply cset_eq. assert (K2 : cset c1 kh d kc = chal') by (rewrite cset_neq by exact Kn; apply cset_eq).
        eapply runs_mono; [apply (IH w (cset c1 kh d))|]; cbn [w iv dv pv mm nx ct].
        -- exact Hm.
        -- rewrite H4z. apply Hd. reflexivity.
        -- exact H5z.
        -- rewrite Hp. exact E0.
        -- rewrite Hp. exact E11.
        -- rewrite Hp. exact E10.
        -- intros w' (c' & Hw & Hc & Hn' & X). exists c'. rewrite <- Hn at 1. split; [exact Hw|]. split; [intros j J1 J2; rewrite Hc by auto; rewrite cset_neq by exact J2; apply cset_neq, J1|].
           split; [rewrite Hn'; exact Hn|]. rewrite K1, K2, H4z in X. unfold hash. cbn [prefix_bytes HASH_PREFIX_1 concat app]. rewrite app_nil_r. exact X.
      * exact Kh.
      * rewrite Ld, Sh. auto.
      * apply shake_ok.
      * exact Hz.
Qed.
End Z.

(** The whole of H3, in a memory with a region for the challenge. *)
Section H3.
Variables (n0 : nat) (m0 : memory) (U : nat -> nat -> bytes).
Notation heap := (heap n0 m0).
Notation ro := (ro n0 m0).
Variable L : layout.
Variables (E : env) (P : paramset).
Let T := numMPCRounds P.
Let dB := digestSizeBytes P.
Notation Es := (with_shake E).
Variable kc : nat.
Hypotheses (HU : locals_ok U) (HB : (N.of_nat dB + 200 <= 2 ^ 32)%N) (HT : 0 < T) (HD : 0 < dB) (Kc : kc < cnt L) (Sc : sz L kc = numBytes (2 * T)).
Variable qr : ptr.
Hypotheses (Rr : ro L qr round_constant_bytes) (Ar : snd qr mod 8 = 0).

(** [l], of at least [n] bytes, is at [q], outside the challenge. *)
Definition src (c : nat -> bytes) (q : ptr) (n : nat) (l : bytes) : Prop :=
  (ro L q l \/ exists k, k < cnt L /\ k <> kc /\ q = reg L k /\ l = c k) /\ bytes_ok l /\ n <= length l /\ short l.
Definition gives (y : state) (c : nat -> bytes) (a i n : nat) (l : bytes) : Prop := exists q, nth_error (pv y a) i = Some q /\ src c q n l.
Definition gives_triples (y : state) (c : nat -> bytes) (a n n' : nat) (l : list (bytes * bytes * bytes)) : Prop :=
  forall i, i < T -> exists x1 x2 x3, nth_error l i = Some (x1, x2, x3) /\ gives y c a (3 * i) n x1 /\ gives y c a (3 * i + 1) n x2 /\ gives y c a (3 * i + 2) n' x3.

Lemma h_H3 fuel y c vo cm gs pub pt salt msg : heap L (nx y) (mm y) c -> pv y 0 = [qr] -> pv y 11 = [reg L kc] ->
  gives_triples y c 3 (stateSizeBytes P) (stateSizeBytes P) vo -> gives_triples y c 4 dB dB cm ->
  (is_UR (transf P) = true -> gives_triples y c 5 (UnruhGWithoutInputBytes P) (UnruhGWithInputBytes P) gs) ->
  gives y c 6 0 (stateSizeBytes P) pub -> gives y c 7 0 (stateSizeBytes P) pt -> gives y c 8 0 (saltSizeBytes P) salt -> gives y c 9 0 (length msg) msg ->
  runs U (c_H3 P (length msg) fuel) y (fun z => exists c', heap L (nx y) (mm z) c' /\ (forall j, j < cnt L -> j <> kc -> c' j = c j) /\ nx z = nx y /\
    match H3 Es P fuel pub pt vo cm (c kc) salt msg gs with Ok chal => iv z 5 = 1 /\ c' kc = chal | NoFuel => iv z 5 = 0 | _ => False end).
Proof.
  intros H E0 E11 G3 G4 G5 G6 G7 G8 G9. unfold c_H3. pose proof (numBytes_spec (2 * T)) as Hnb. pose proof (heap_len _ _ _ _ _ _ H kc Kc) as Lc.
  apply (h_loc n0 m0 U L 10 (IC dB) _ y c); [exact HU|exact H|]. intros b0 Lb Bb. cbn [ieval] in *. fold dB. set (L' := push L (nx y, 0) dB). set (kh := cnt L).
  pose proof (heap_push n0 m0 L (nx y) (mm y) c b0 H Bb) as Hp. rewrite Lb in Hp. fold L' in Hp. fold kh in Hp. set (c1 := cset c kh b0) in *.
  pose proof (heap_lay _ _ _ _ _ _ H) as HL.
  assert (Rg : forall k, k < cnt L -> reg L' k = reg L k /\ sz L' k = sz L k) by (intros k Hk; unfold L', push; cbn [reg sz]; rewrite !upd_neq by lia; auto).
  assert (Rh : reg L' kh = (nx y, 0) /\ sz L' kh = dB) by (unfold L', push, kh; cbn [reg sz]; rewrite !upd_eq; auto).
  assert (Cn : cnt L' = S kh) by reflexivity.
  destruct (Rg kc Kc) as [Rc1 Rc2]. destruct Rh as [Rh1 Rh2]. assert (Nk : kc <> kh) by (unfold kh; lia).
  assert (Rr' : CodeHeap.ro n0 m0 L' qr round_constant_bytes) by (apply ro_push; [apply HL|exact Rr]).
  set (y1 := mkState _ _ _ _ _ _).
  apply runs_seq. apply (h_st1 n0 m0 U L' _ _ y1 c1 kc (numBytes (T * 2) - 1) (reg L' kc)); [exact Hp|rewrite Cn; unfold kh; lia|reflexivity| | |].
  { cbn [y1 pv iv peval P0 ieval]. rewrite upd_neq by lia. rewrite E11, Rc1. cbn [nth_error]. destruct (reg L kc). reflexivity. }
  { rewrite Rc2, Sc. rewrite (Nat.mul_comm T 2). lia. }
  intros m2 H2. cbn [deval] in H2. change (0 mod 256)%N with 0%N in H2. set (y2 := set_mm y1 m2). assert (C1 : c1 kc = c kc) by (apply cset_neq; exact Nk).
  rewrite C1 in H2. set (chal0 := list_set (c kc) (numBytes (T * 2) - 1) 0%N) in *. set (c2 := cset c1 kc chal0) in *.
  assert (Cx : forall k, k < cnt L -> k <> kc -> c2 k = c k) by (intros k Hk Hne; unfold c2; rewrite cset_neq by exact Hne; apply cset_neq; unfold kh; lia).
  set (ps := [[qr]; []; []; pv y 3; pv y 4; pv y 5; pv y 6; pv y 7; pv y 8; pv y 9; [(nx y, 0)]]). set (z0 := mkState (args 0 []) (args 0%N []) (args [] ps) (mm y2) (nx y2) (ct y2)).
  assert (X : forall a i n l, nth a ps [] = pv y a -> gives y c a i n l -> CodeHashUsesSpec.holds z0 a i n l).
  { intros a i n l Ea (q & Hq & Hs & B & L1 & S1). exists q. split; [cbn [z0 pv]; unfold args; rewrite Ea; exact Hq|]. split; [|auto]. cbn [z0 nx mm y2 set_mm y1].
    destruct Hs as [Hs|(k & Hk & Hne & -> & ->)].
    - apply (heap_ro _ _ L' _ _ c2 _ _ H2). apply ro_push; [apply HL|exact Hs].
    - pose proof (heap_pts _ _ _ _ _ _ H2 k ltac:(rewrite Cn; unfold kh; lia)) as Y. rewrite (proj1 (Rg k Hk)), Cx in Y by auto. exact Y. }
  assert (X3 : forall a n n' l, nth a ps [] = pv y a -> gives_triples y c a n n' l -> holds_triples z0 a (numMPCRounds P) n n' l).
  { intros a n n' l Ea Hg i Hi. destruct (Hg i Hi) as (x1 & x2 & x3 & A0 & A1 & A2 & A3). exists x1, x2, x3. split; [exact A0|]. split; [apply X; auto|]. split; apply X; auto. }
  assert (Hc0 : constants z0 qr) by (apply (z_constants y2 ps qr); auto; apply (heap_ro _ _ L' _ _ c2 _ _ H2), Rr').
  assert (Hrm : room_at z0 qr 10 0 (nx y, 0) dB).
  { split; [reflexivity|]. split.
    - exists (c2 kh). pose proof (heap_pts _ _ _ _ _ _ H2 kh ltac:(lia)) as Y. pose proof (heap_len _ _ _ _ _ _ H2 kh ltac:(lia)) as Y2. rewrite Rh1 in Y. rewrite Rh2 in Y2. auto.
    - pose proof (proj2 Rr' kh ltac:(lia)) as Y. rewrite Rh1, Rh2 in Y. exact Y. }
  destruct (H3_code U HU P z0 qr (nx y, 0) vo cm gs pub pt salt msg Hc0 Hrm) as (chunks & HI & (z1 & t1 & R1 & R2)).
  { apply X3; [reflexivity|exact G3]. } { apply X3; [reflexivity|exact G4]. } { intros Hu. apply X3; [reflexivity|exact (G5 Hu)]. }
  { apply X; [reflexivity|exact G6]. } { apply X; [reflexivity|exact G7]. } { apply X; [reflexivity|exact G8]. } { apply X; [reflexivity|exact G9]. }
  set (d := shake _ _ _) in R2. assert (Ld : length d = dB) by apply shake_ok.
  unfold H3. rewrite wr_ok by (rewrite Lc, Sc, (Nat.mul_comm (numMPCRounds P) 2); fold T; lia). cbn [bind]. fold chal0. rewrite HI. cbn [bind].
  apply runs_seq. apply (h_leaves n0 m0 U L' _ _ _ ps y2 c2 kh d).
  - cbn [pargevals pargeval pevals y2 set_mm y1 pv iv]. rewrite !upd_neq by lia. rewrite upd_eq, E0. reflexivity.
  - cbv zeta. fold z0. exists z1, t1. rewrite Rh1. split; [exact R1|]. split; [exact R2|]. intros m3 u3 H3'. cbn [copy_back].
    assert (Cb : blit_list (c2 kh) 0 d = d) by (apply blit_list_all; rewrite (heap_len _ _ _ _ _ _ H2 kh ltac:(lia)), Rh2; auto). rewrite Cb in H3'.
    apply runs_seq, runs_iset, runs_seq, runs_iset. unfold set_iv. cbn [iv dv pv mm nx ct]. set (y4 := mkState _ _ _ _ _ _).
    assert (K1 : cset c2 kh d kh = d) by apply cset_eq. assert (K2 : cset c2 kh d kc = chal0) by (rewrite cset_neq by exact Nk; apply cset_eq).
    assert (XE : runs U (c_expand P fuel) y4 (fun z => exists c', heap L' (nx y4) (mm z) c' /\ (forall j, j <> kc -> j <> kh -> c' j = cset c2 kh d j) /\ nx z = nx y4 /\
      match H3_loop Es P fuel (cset c2 kh d kh) (cset c2 kh d kc) (iv y4 4) with Ok chal => iv z 5 = 1 /\ c' kc = chal | NoFuel => iv z 5 = 0 | _ => False end)).
    { apply (h_expand n0 m0 U L' E P kc kh) with (qr := qr); auto.
      - rewrite Cn. unfold kh. lia.
      - rewrite Rc2, Sc. fold T. lia.
      - rewrite Rc1. exact E11.
      - rewrite Rh1. reflexivity. }
    eapply runs_mono; [exact XE|].
    intros w (c' & Hw & Hcw & Hnw & XX). exists c'. split; [exact Hw|]. intros m' Hm'. exists c'. cbn [mm nx iv]. split; [exact Hm'|].
      split; [intros j Hj Hne; rewrite Hcw by (unfold kh; lia); rewrite cset_neq by (unfold kh; lia); apply Cx; auto|]. split; [reflexivity|].
      rewrite K1, K2 in XX. unfold hash. cbn [prefix_bytes HASH_PREFIX_1 app]. exact XX.
  - lia.
  - rewrite Ld, Rh2. auto.
  - apply shake_ok.
  - exact H2.
Qed.
End H3.
