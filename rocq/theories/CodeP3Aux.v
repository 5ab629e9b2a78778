(** The auxiliary bits of the last party on memory with pointers. *)

From Coq Require Import List NArith Arith Bool Lia ZifyBool ZifyNat ZifyN.
From Verif Require Import Base Params Env Spec LowMC Picnic3 MiniC CodeLowMC CodeP3 CodeSpec BaseFacts ParamFacts LowMCFacts
  ZkbChal P3Tape P3Aux P3Online MiniCFacts CodeRules CodeLowMCProofs CodeHeap CodeZkbProofs CodeZkbMpc CodeP3Proofs CodeP3Lin.
Import ListNotations.
Local Opaque pack.

Lemma list_set_set {A} (l : list A) i x y : list_set (list_set l i x) i y = list_set l i y.
Proof. revert i; induction l as [|a l IH]; intros [|i]; cbn [list_set]; auto. f_equal. apply IH. Qed.

Section A.
Variables (n0 : nat) (m0 : memory) (U : nat -> nat -> bytes) (HU : locals_ok U).
Notation heap := (heap n0 m0).
Notation ro := (ro n0 m0).
Notation at_ := (at_ n0 m0).
Notation row_at := (row_at n0 m0).
Variables (E : env) (P : paramset).
Hypothesis HP3 : wfP3 P.
Hypothesis HE : env_bytes_ok E.
Let HP := w3_wfP P HP3.
Let tS := p3_tapeSize P.
Variables (L : layout) (kt : nat) (T0 : list bytes) (ps : list ptr).
(** The tapes: the last one is region [kt], the others are not written. *)
Hypothesis Hkt : kt < cnt L.
Hypothesis Skt : sz L kt = tS.
Hypothesis HT0 : rows 16 tS T0.
Hypothesis Hps : forall i, i < 15 -> exists q, nth_error ps i = Some q /\ ro L q (nth i T0 []).
Hypothesis Hps15 : nth_error ps 15 = Some (reg L kt).

Definition tapes_of (c : nat -> bytes) : list bytes := list_set T0 15 (c kt).

Lemma nth_tapes c i : i < 16 -> nth i (tapes_of c) [] = if i =? 15 then c kt else nth i T0 [].
Proof. intros Hi. unfold tapes_of. destruct HT0 as [Hl _]. apply nth_list_set. lia. Qed.

Lemma tapes_row c : row_at L c ps (tapes_of c).
Proof.
  intros i Hi. rewrite nth_tapes by exact Hi. destruct (Nat.eqb_spec i 15) as [->|Hne].
  - exists (reg L kt). split; [exact Hps15|]. right. exists kt. auto.
  - destruct (Hps i ltac:(lia)) as (q & A & B). exists q. split; [exact A|]. left. exact B.
Qed.

Lemma tapes_rows n m c : heap L n m c -> rows 16 tS (tapes_of c).
Proof.
  intros H. apply rows_set; [exact HT0|lia| |].
  - rewrite (heap_len _ _ _ _ _ _ H kt Hkt). exact Skt.
  - apply (heap_ok _ _ _ _ _ _ H kt Hkt).
Qed.

Lemma tapes_same c c' : c' kt = c kt -> tapes_of c' = tapes_of c.
Proof. unfold tapes_of. intros ->. reflexivity. Qed.

Lemma row_same c c' : c' kt = c kt -> row_at L c' ps (tapes_of c).
Proof. intros H. rewrite <- (tapes_same c c' H). apply tapes_row. Qed.

Lemma h_aux_mpc_AND a b f tapes pos y c va vb vf (Q : state -> Prop) :
  deval (iv y) (dv y) a = b2n va -> deval (iv y) (dv y) b = b2n vb -> deval (iv y) (dv y) f = b2n vf ->
  pv y tapes = ps -> iv y pos < 8 * tS -> heap L (nx y) (mm y) c ->
  (forall m' u c', heap L (nx y) m' c' -> (forall k, k <> kt -> c' k = c k) ->
     aux_mpc_AND E P va vb vf (mkTapes (tapes_of c) (iv y pos)) = Ok (mkTapes (tapes_of c') (S (iv y pos))) ->
     Q (mkState (upd (iv y) pos (S (iv y pos))) (dv y) (pv y) m' (nx y) u)) ->
  runs U (c_aux_mpc_AND P a b f tapes pos) y Q.
Proof.
  intros Ea Eb Ef Ep Hp H HQ. unfold c_aux_mpc_AND. eapply runs_call; [reflexivity|]. cbn [map ieval]. rewrite Ea, Eb, Ef, Ep.
  set (p := iv y pos) in *. unfold aux_mpc_AND_body. rewrite (w3_N P HP3). change (16 - 1) with 15.
  pose proof (tapes_rows _ _ _ H) as HT.
  apply runs_seq. apply (h_tapesToWord n0 m0 U HU L 3 0 0 _ c (tapes_of c)).
  { csimpl. apply tapes_row. }
  { csimpl. intros i Hi. rewrite (proj1 (proj2 HT i Hi)). exact Hp. }
  { exact H. }
  csimpl. intros m1 u H1. set (w := w16 (fun i => tbit (tapes_of c) i p)).
  apply runs_seq, runs_parity16; [csimpl; apply w16_lt|]. csimpl.
  apply runs_seq. eapply (h_getBit n0 m0 U L _ _ _ _ c kt).
  { exact H1. } { exact Hkt. } { csimpl. exact Hps15. } { csimpl. rewrite Skt. clear - Hp; lia. }
  assert (Sp : S p - 1 = p) by (clear; lia). csimpl. rewrite Sp.
  apply runs_seq, runs_dset, runs_seq, runs_dset. csimpl.
  set (v := xorb (xorb (va && vb) (xorb (parity16 w) (bit (c kt) p))) vf).
  eapply (h_setBit n0 m0 U L _ _ _ _ c kt v).
  { exact H1. } { exact Hkt. } { csimpl. exact Hps15. } { csimpl. rewrite Skt. clear - Hp; lia. }
  { csimpl. unfold v. destruct va, vb, vf, (parity16 w), (bit (c kt) p); reflexivity. }
  csimpl. rewrite Sp. intros m2 H2. apply (HQ m2 u _ H2).
  - intros k Hk. apply cset_neq, Hk.
  - destruct HT as [Hl HTr]. destruct (HTr 15 ltac:(lia)) as [L15 B15].
    unfold aux_mpc_AND. rewrite (w3_N P HP3). change (16 - 1) with 15. rewrite (tapesToWord_ok E P HE) by (auto; split; auto). fold w. rewrite bind_Ok. cbn [tp_tape tp_pos].
    rewrite (rd_ok (tapes_of c) 15 []) by lia. rewrite bind_Ok. rewrite Sp. rewrite getBit_ok by (apply lt_div8; fold tS in L15; clear - L15 Hp; lia). rewrite bind_Ok.
    rewrite setBit_ok by (apply lt_div8; fold tS in L15; clear - L15 Hp; lia). rewrite bind_Ok.
    assert (N15 : nth 15 (tapes_of c) [] = c kt) by (rewrite nth_tapes by lia; reflexivity). rewrite N15. fold v.
    unfold wr. rewrite Hl. change (15 <? 16) with true. cbv iota. rewrite bind_Ok. do 2 f_equal. unfold tapes_of. rewrite list_set_set, cset_eq. reflexivity.
Qed.

Lemma h_aux_mpc_sbox pi po tapes pos y c ki ko (Q : state -> Prop) : let p := iv y pos in
  peval (iv y) (pv y) pi = Some (reg L ki) -> peval (iv y) (pv y) po = Some (reg L ko) -> ki < cnt L -> ko < cnt L -> ki <> kt -> ko <> kt ->
  3 * numSboxes P <= 8 * sz L ki -> 3 * numSboxes P <= 8 * sz L ko -> pv y tapes = ps -> p + 3 * numSboxes P <= 8 * tS -> heap L (nx y) (mm y) c ->
  (forall m' u c', heap L (nx y) m' c' -> (forall k, k <> kt -> c' k = c k) ->
     aux_mpc_sbox E P (c ki) (c ko) (mkTapes (tapes_of c) p) = Ok (mkTapes (tapes_of c') (p + 3 * numSboxes P)) ->
     Q (mkState (upd (iv y) pos (p + 3 * numSboxes P)) (dv y) (pv y) m' (nx y) u)) ->
  runs U (c_aux_mpc_sbox P pi po tapes pos) y Q.
Proof.
  cbv zeta. intros Ei Eo Hki Hko Nki Nko Si So Ep Hp H HQ. unfold c_aux_mpc_sbox.
  eapply runs_call; [cbn [pargevals pargeval pevals]; rewrite Ei, Eo, Ep; reflexivity|]. cbn [map ieval]. set (p := iv y pos) in *. unfold aux_mpc_sbox_body.
  unfold aux_mpc_sbox in HQ. set (body := fun k (tp : tapes_t) => _) in HQ. set (m := numSboxes P) in *.
  set (pv1 := args [] [[reg L ki]; [reg L ko]; ps]).
  apply runs_for with (I := fun k z => pv z = pv1 /\ nx z = nx y /\ iv z 0 = p + 3 * k /\
    exists c', heap L (nx y) (mm z) c' /\ (forall j, j <> kt -> c' j = c j) /\
      for_loop k 0 body (mkTapes (tapes_of c) p) = Ok (mkTapes (tapes_of c') (p + 3 * k))).
  - csimpl. repeat (split; [first [reflexivity|lia]|]). exists c. split; [exact H|]. split; [auto|]. cbn [for_loop]. rewrite Nat.mul_0_r, Nat.add_0_r. reflexivity.
  - csimpl. rewrite (iters3 P). intros k z Hk (Z1 & Z2 & Z3 & c' & Hz & Hc' & Hl). destruct z as [zi zd zp zm zn zc]. cbn [iv dv pv mm nx ct] in *. subst zp zn. cbn [Nat.add].
    set (i := k * 3). assert (Q0 : p + 3 * k < 8 * tS) by (clear - Hp Hk; lia). assert (Q1 : S (p + 3 * k) < 8 * tS) by (clear - Hp Hk; lia). assert (Q2 : S (S (p + 3 * k)) < 8 * tS) by (clear - Hp Hk; lia).
    assert (Q3 : S (S (S (p + 3 * k))) = p + 3 * S k) by (clear; lia). assert (Ji : i + 2 < 3 * m) by (clear - Hk; unfold i; lia).
    assert (Ki : 3 * k = i) by (unfold i; apply Nat.mul_comm).
    do 3 (apply runs_seq; eapply (h_getBit n0 m0 U L _ _ _ _ c' ki); [exact Hz|exact Hki|unfold pv1; csimpl; reflexivity|csimpl; clear - Ji Si So; lia|]; csimpl).
    do 3 (apply runs_seq; eapply (h_getBit n0 m0 U L _ _ _ _ c' ko); [exact Hz|exact Hko|unfold pv1; csimpl; reflexivity|csimpl; clear - Ji Si So; lia|]; csimpl).
    rewrite (Hc' ki Nki), (Hc' ko Nko).
    set (va := bit (c ki) (i + 2)). set (vb := bit (c ki) (i + 1)). set (vc := bit (c ki) i).
    set (vd := bit (c ko) (i + 2)). set (ve := bit (c ko) (i + 1)). set (vf := bit (c ko) i).
    apply runs_seq, runs_dset, runs_seq, runs_dset, runs_seq, runs_dset. csimpl.
    apply runs_seq. eapply (h_aux_mpc_AND _ _ _ _ _ _ c' va vb (xorb (xorb (xorb vf va) vb) vc)).
    { csimpl. reflexivity. } { csimpl. reflexivity. } { csimpl. destruct va, vb, vc, vf; reflexivity. } { csimpl. reflexivity. } { csimpl. rewrite Z3. exact Q0. } { exact Hz. }
    csimpl. rewrite Z3. intros m1 u1 c1 H1 Hc1 M1.
    apply runs_seq. eapply (h_aux_mpc_AND _ _ _ _ _ _ c1 vb vc (xorb vd va)).
    { csimpl. reflexivity. } { csimpl. reflexivity. } { csimpl. destruct va, vd; reflexivity. } { csimpl. reflexivity. } { csimpl. exact Q1. } { exact H1. }
    csimpl. intros m2 u2 c2 H2 Hc2 M2.
    eapply (h_aux_mpc_AND _ _ _ _ _ _ c2 vc va (xorb (xorb ve va) vb)).
    { csimpl. reflexivity. } { csimpl. reflexivity. } { csimpl. destruct va, vb, ve; reflexivity. } { csimpl. reflexivity. } { csimpl. exact Q2. } { exact H2. }
    csimpl. intros m3 u3 c3 H3 Hc3 M3.
    split; [reflexivity|]. split; [reflexivity|]. split; [exact Q3|]. exists c3. split; [exact H3|]. split; [intros j Hj; rewrite Hc3, Hc2, Hc1 by exact Hj; auto|].
    rewrite for_loop_snoc, Hl, bind_Ok. cbn [Nat.add]. unfold body. rewrite Ki. cbv zeta.
    pose proof (heap_len _ _ _ _ _ _ H ki Hki) as Li. pose proof (heap_len _ _ _ _ _ _ H ko Hko) as Lo.
    rewrite !getBit_ok by (apply lt_div8; rewrite ?Li, ?Lo; clear - Ji Si So; lia). rewrite !bind_Ok. fold va vb vc vd ve vf.
    rewrite Ki in M1, M2, M3, Q3. rewrite M1, bind_Ok, M2, bind_Ok, M3, Q3. reflexivity.
  - csimpl. rewrite (iters3 P). intros z (Z1 & Z2 & Z3 & c' & Hz & Hc' & Hl). rewrite Z2, Z3. apply (HQ _ _ c'); auto.
Qed.
End A.
