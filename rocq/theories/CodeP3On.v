(** The steps of the online computation of Picnic3 on memory with pointers. *)

From Coq Require Import List NArith Arith Bool Lia ZifyBool ZifyNat ZifyN.
From Verif Require Import Base Params Env Spec LowMC Picnic3 MiniC CodeLowMC CodeP3 CodeSpec BaseFacts ParamFacts LowMCFacts
  ZkbChal P3Tape P3Aux P3Online MiniCFacts CodeRules CodeLowMCProofs CodeHeap CodeZkbProofs CodeZkbBits CodeZkbMpc CodeP3Proofs CodeP3Lin.
Import ListNotations.
Local Opaque pack.

Lemma shr16_0 x : (x < 65536)%N <-> N.shiftr x 16 = 0%N.
Proof. rewrite N.shiftr_div_pow2. change (2 ^ 16)%N with 65536%N. symmetry. apply N.div_small_iff. discriminate. Qed.
Lemma lxor_lt16 x y : (x < 65536)%N -> (y < 65536)%N -> (N.lxor x y < 65536)%N.
Proof. rewrite !shr16_0, N.shiftr_lxor. intros -> ->. reflexivity. Qed.
Lemma land_lt16 x y : (y < 65536)%N -> (N.land x y < 65536)%N.
Proof. rewrite !shr16_0, N.shiftr_land. intros ->. apply N.land_0_r. Qed.

Lemma extend_ok f g e v : deval f g e = b2n v -> deval f g (d_extend e) = extend v.
Proof. unfold d_extend. cbn [deval]. intros ->. destruct v; reflexivity. Qed.

Lemma word_of_lt2 b : length b = 2 -> bytes_ok b -> (word_of b < 65536)%N.
Proof.
  intros Hl Hb. rewrite word_of_2 by exact Hl. pose proof (bytes_ok_nth b 0 Hb) as A. pose proof (bytes_ok_nth b 1 Hb) as B. unfold byte in A, B. lia.
Qed.
Lemma word_of_w16_bytes v : (v < 65536)%N -> word_of (w16_bytes v) = v.
Proof.
  intros H. rewrite <- bytes_of_word_2. cbn [bytes_of_word word_of]. rewrite N.mul_0_r, N.add_0_r. rewrite (N.mod_small (v / 256)).
  - pose proof (N.div_mod v 256 ltac:(discriminate)). lia.
  - apply N.div_lt_upper_bound; [discriminate|]. exact H.
Qed.
Lemma bytes_w16_word b : length b = 2 -> bytes_w16 b = Ok (word_of b).
Proof. intros H. rewrite bytes_w16_ok, word_of_2 by exact H. reflexivity. Qed.

Lemma blit_word2 (b : bytes) v : length b = 2 -> blit_list b 0 (bytes_of_word 2 v) = w16_bytes v.
Proof. destruct b as [|x [|y [|z b]]]; try discriminate. reflexivity. Qed.

(** The messages. *)
Definition msgs_of (c : nat -> bytes) : list bytes := map c (seq 0 16).
Lemma length_msgs c : length (msgs_of c) = 16.
Proof. unfold msgs_of. rewrite map_length, seq_length. reflexivity. Qed.
Lemma nth_msgs c i : i < 16 -> nth i (msgs_of c) [] = c i.
Proof. intros H. unfold msgs_of. rewrite (nth_indep _ [] (c 0)) by (rewrite map_length, seq_length; exact H). rewrite map_nth, seq_nth by exact H. reflexivity. Qed.
Lemma rd_msgs c i : i < 16 -> rd (msgs_of c) i = Ok (c i).
Proof. intros H. rewrite (rd_ok (msgs_of c) i []) by (rewrite length_msgs; exact H). rewrite nth_msgs by exact H. reflexivity. Qed.
Lemma msgs_ext c c' : (forall i, i < 16 -> c' i = c i) -> msgs_of c' = msgs_of c.
Proof. intros H. unfold msgs_of. apply map_ext_in. intros i Hi. apply in_seq in Hi. apply H. lia. Qed.
Lemma wr_msgs c i x : i < 16 -> wr (msgs_of c) i x = Ok (msgs_of (cset c i x)).
Proof.
  intros H. unfold wr. rewrite length_msgs, (proj2 (Nat.ltb_lt i 16)) by exact H. f_equal. apply (nth_ext _ _ [] []).
  - rewrite length_list_set, !length_msgs. reflexivity.
  - rewrite length_list_set, length_msgs. intros j Hj. rewrite nth_list_set by (rewrite length_msgs; exact H). rewrite !nth_msgs by exact Hj. reflexivity.
Qed.

Section A.
Variables (n0 : nat) (m0 : memory) (U : nat -> nat -> bytes) (HU : locals_ok U).
Notation heap := (heap n0 m0).
Notation ro := (ro n0 m0).
Notation row_at := (row_at n0 m0).
Variables (E : env) (P : paramset).
Hypothesis HP3 : wfP3 P.
Hypothesis HE : env_bytes_ok E.
Let HP := w3_wfP P HP3.
Let tS := p3_tapeSize P.
Let aB := andSizeBytes P.

(** The messages are the first regions. *)
Definition msgs_at (L : layout) (qs : list ptr) : Prop := 16 <= cnt L /\ forall i, i < 16 -> sz L i = aB /\ nth_error qs i = Some (reg L i).

Lemma msgs_at_push L qs n s : msgs_at L qs -> msgs_at (push L (n, 0) s) qs.
Proof.
  intros [A B]. split; [cbn [push cnt]; lia|]. intros i Hi. cbn [push reg sz]. rewrite !upd_neq by lia. apply B, Hi.
Qed.

Lemma h_wordToMsgs L e msgs pos y c v (Q : state -> Prop) : let p := iv y pos in
  msgs_at L (pv y msgs) -> deval (iv y) (dv y) e = v -> p < 8 * aB -> heap L (nx y) (mm y) c ->
  (forall m' u c', heap L (nx y) m' c' -> (forall k, 16 <= k -> c' k = c k) ->
     (forall uo, wordToMsgs P v (mkMsgs (msgs_of c) p uo) = Ok (mkMsgs (msgs_of c') (S p) uo)) ->
     Q (mkState (upd (iv y) pos (S p)) (dv y) (pv y) m' (nx y) u)) ->
  runs U (c_wordToMsgs P e msgs pos) y Q.
Proof.
  cbv zeta. set (p := iv y pos). intros HM Ev Hp H HQ. unfold c_wordToMsgs. eapply runs_call; [reflexivity|]. cbn [map ieval]. rewrite Ev. fold p. unfold wordToMsgs_body. rewrite (w3_N P HP3).
  eapply (h_loc n0 m0 U L _ _ _ _ c); [exact HU|exact H|]. cbn [iv dv pv mm nx ct ieval]. intros b Lb Bb.
  set (N0 := nx y) in *. set (L' := push L (N0, 0) 2). set (k0 := cnt L).
  assert (H1 : heap L' (S N0) (upd (mm y) N0 b) (cset c k0 b)).
  { pose proof (heap_push n0 m0 L N0 (mm y) c b H Bb) as H1. rewrite Lb in H1. exact H1. }
  assert (C1 : k0 < cnt L') by (unfold L'; cbn [push cnt]; lia).
  assert (R1 : reg L' k0 = (N0, 0) /\ sz L' k0 = 2) by (unfold L'; cbn [push reg sz]; rewrite !upd_eq; auto). destruct R1 as [R1 S1].
  pose proof (msgs_at_push L (pv y msgs) N0 2 HM) as [_ HM']. fold L' in HM'. destruct HM as [H16 _]. fold k0 in H16.
  set (pv1 := upd (args [] [pv y msgs]) 1 [(N0, 0)]).
  assert (P0e : pv1 0 = pv y msgs) by reflexivity. assert (P1e : pv1 1 = [reg L' k0]) by (rewrite R1; reflexivity). clearbody pv1.
  apply runs_seq. apply (h_stw n0 m0 U L' 2 (P0 1) (DV 0) _ (cset c k0 b) k0 0); csimpl.
  { rewrite P1e, eq_plus0. reflexivity. } { exact C1. } { lia. } { rewrite S1. lia. } { rewrite R1. reflexivity. } { exact H1. }
  intros m1 Hm1. flat. rewrite cset_eq in Hm1.
  assert (Eb : blit_list b 0 (bytes_of_word 2 v) = w16_bytes v).
  { apply blit_word2, Lb. }
  csimpl_in Hm1. rewrite Eb in Hm1. clear Eb.
  set (body := fun i (msgs0 : list bytes) => w_i <- getBit (w16_bytes v) i ;; m <- rd msgs0 i ;; m <- setBit m p w_i ;; wr msgs0 i m).
  apply runs_seq. apply runs_forn with (I := fun k z => pv z = pv1 /\ nx z = S N0 /\ iv z 0 = p /\
    exists c', heap L' (S N0) (mm z) c' /\ c' k0 = w16_bytes v /\ (forall j, 16 <= j -> j <> k0 -> c' j = c j) /\ for_loop k 0 body (msgs_of c) = Ok (msgs_of c')).
  - csimpl. split; [reflexivity|]. split; [reflexivity|]. split; [reflexivity|]. eexists. split; [exact Hm1|]. split; [apply cset_eq|]. split.
    + intros j Hj Hne. rewrite !cset_neq by exact Hne. reflexivity.
    + cbn [for_loop]. f_equal. symmetry. apply msgs_ext. intros i Hi. rewrite !cset_neq by lia. reflexivity.
  - csimpl. intros k z Hk (Z1 & Z2 & Z3 & c' & Hz & Hw & Ho & Hl). destruct z as [zi zd zp zm zn zc]. cbn [iv dv pv mm nx ct] in *. subst zp zn.
    destruct (HM' k Hk) as [Sk Ek].
    apply runs_seq. eapply (h_getBit n0 m0 U L' _ _ _ _ c' k0).
    { exact Hz. } { exact C1. } { csimpl. rewrite P1e. reflexivity. } { csimpl. rewrite S1. lia. }
    csimpl. rewrite Hw. eapply (h_setBit n0 m0 U L' _ _ _ _ c' k (bit (w16_bytes v) k)).
    { exact Hz. } { lia. } { csimpl. rewrite P0e. exact Ek. } { csimpl. rewrite Z3, Sk. exact Hp. } { csimpl. apply b2n_mod. }
    csimpl. rewrite Z3. intros m' Hm. split; [reflexivity|]. split; [reflexivity|]. split; [reflexivity|]. eexists. split; [exact Hm|]. split; [rewrite cset_neq by lia; exact Hw|]. split.
    + intros j Hj Hne. rewrite cset_neq by lia. apply Ho; auto.
    + rewrite for_loop_snoc, Hl, bind_Ok. cbn [Nat.add]. unfold body. rewrite getBit_ok by (apply lt_div8; rewrite length_w16_bytes; lia). rewrite bind_Ok, rd_msgs, bind_Ok by exact Hk.
      rewrite setBit_ok by (apply lt_div8; rewrite (heap_len _ _ _ _ _ _ Hz k ltac:(lia)), Sk; exact Hp). rewrite bind_Ok. apply wr_msgs, Hk.
  - csimpl. intros z (Z1 & Z2 & Z3 & c' & Hz & Hw & Ho & Hl). destruct z as [zi zd zp zm zn zc]. cbn [iv dv pv mm nx ct] in *. subst zp zn.
    apply runs_iset. csimpl. exists (fun k => if k =? k0 then c' k0 else c' k). split; [apply (heap_ext _ _ _ _ _ _ _ Hz); intros k _; destruct (Nat.eqb_spec k k0) as [->|]; reflexivity|].
    intros m' Hm. rewrite Z3, Nat.add_1_r.
    set (cf := fun k => if k <? k0 then c' k else c k).
    apply (HQ m' _ cf).
    + apply (heap_ext _ _ _ _ _ _ _ Hm). intros k Hk. fold k0 in Hk. unfold cf. rewrite (proj2 (Nat.ltb_lt k k0)), (proj2 (Nat.eqb_neq k k0)) by lia. reflexivity.
    + intros k Hk. unfold cf. destruct (Nat.ltb_spec k k0); [apply Ho; lia|reflexivity].
    + intros uo. unfold wordToMsgs. rewrite (w3_N P HP3). cbn [ms_msgs ms_pos ms_unopened]. fold body. rewrite Hl, bind_Ok. do 2 f_equal. apply msgs_ext. intros i Hi. unfold cf.
      rewrite (proj2 (Nat.ltb_lt i k0)) by lia. reflexivity.
Qed.

Lemma row_ro L tl ps c : (forall i, i < 16 -> exists q, nth_error ps i = Some q /\ ro L q (nth i tl [])) -> row_at L c ps tl.
Proof. intros H i Hi. destruct (H i Hi) as (q & A & B). exists q. split; [exact A|]. left. exact B. Qed.

Lemma h_p3_mpc_AND L tl uo x a b ma mb tapes msgs tpos mpos unop y c va vb wa wb (Q : state -> Prop) : let tp := iv y tpos in let mp := iv y mpos in
  rows 16 tS tl -> (forall i, i < 16 -> exists q, nth_error (pv y tapes) i = Some q /\ ro L q (nth i tl [])) -> msgs_at L (pv y msgs) ->
  (forall u, uo = Some u -> u < 16) -> iv y unop = match uo with Some u => S u | None => 0 end ->
  deval (iv y) (dv y) a = b2n va -> deval (iv y) (dv y) b = b2n vb -> deval (iv y) (dv y) ma = wa -> deval (iv y) (dv y) mb = wb ->
  (wa < 65536)%N -> (wb < 65536)%N -> tp < 8 * tS -> mp < 8 * aB -> heap L (nx y) (mm y) c ->
  (forall m' u c' o, heap L (nx y) m' c' -> (forall k, 16 <= k -> c' k = c k) ->
     p3_mpc_AND E P va vb wa wb (mkTapes tl tp) (mkMsgs (msgs_of c) mp uo) = Ok (o, mkTapes tl (S tp), mkMsgs (msgs_of c') (S mp) uo) ->
     Q (mkState (upd (upd (iv y) tpos (S tp)) mpos (S mp)) (upd (dv y) x (b2n o)) (pv y) m' (nx y) u)) ->
  runs U (c_p3_mpc_AND P x a b ma mb tapes msgs tpos mpos unop) y Q.
Proof.
  cbv zeta. set (tp := iv y tpos). set (mp := iv y mpos). intros HT Htp HM Huo Eu Ea Eb Ema Emb Wa Wb Hp Hmp H HQ.
  unfold c_p3_mpc_AND. eapply runs_call; [reflexivity|]. cbn [map ieval]. fold tp mp. rewrite Ea, Eb, Ema, Emb, Eu. unfold p3_mpc_AND_body.
  apply runs_seq. apply (h_tapesToWord n0 m0 U HU L 4 0 0 _ c tl).
  { csimpl. apply row_ro, Htp. }
  { csimpl. intros i Hi. rewrite (proj1 (proj2 HT i Hi)). exact Hp. }
  { exact H. }
  csimpl. intros m1 u1 H1. set (w := w16 (fun i => tbit tl i tp)).
  eapply (h_loc n0 m0 U L _ _ _ _ c); [exact HU|exact H1|]. cbn [iv dv pv mm nx ct ieval]. intros bb Lb Bb.
  set (N0 := nx y) in *. set (L' := push L (N0, 0) 2). set (k0 := cnt L).
  assert (H2 : heap L' (S N0) (upd m1 N0 bb) (cset c k0 bb)).
  { pose proof (heap_push n0 m0 L N0 m1 c bb H1 Bb) as H2. rewrite Lb in H2. exact H2. }
  assert (C1 : k0 < cnt L') by (unfold L'; cbn [push cnt]; lia).
  assert (R1 : reg L' k0 = (N0, 0) /\ sz L' k0 = 2) by (unfold L'; cbn [push reg sz]; rewrite !upd_eq; auto). destruct R1 as [R1 S1].
  pose proof (msgs_at_push L (pv y msgs) N0 2 HM) as HM'. fold L' in HM'. pose proof (proj1 HM) as H16. fold k0 in H16.
  set (pv1 := upd (args [] [pv y tapes; pv y msgs]) 2 [(N0, 0)]).
  assert (P1e : pv1 1 = pv y msgs) by reflexivity. assert (P2e : pv1 2 = [reg L' k0]) by (rewrite R1; reflexivity). clearbody pv1.
  set (w0 := N.lxor (N.lxor (N.land (extend va) wb) (N.land (extend vb) wa)) w).
  assert (W0 : (w0 < 65536)%N) by (apply lxor_lt16; [apply lxor_lt16; apply land_lt16; assumption|apply w16_lt]).
  apply runs_seq. apply (h_stw n0 m0 U L' 2 (P0 2) _ _ (cset c k0 bb) k0 0).
  { csimpl. rewrite P2e, eq_plus0. reflexivity. } { exact C1. } { lia. } { rewrite S1. lia. } { rewrite R1. reflexivity. } { exact H2. }
  intros m2 Hm2. flat.
  match type of Hm2 with context [deval ?f ?g ?e] => assert (Ew : deval f g e = w0) end.
  { unfold dxor, dand. cbn [deval dop_eval]. rewrite (extend_ok _ _ (DV 0) va), (extend_ok _ _ (DV 1) vb) by reflexivity. csimpl. reflexivity. }
  rewrite Ew in Hm2. clear Ew. rewrite cset_eq, blit_word2 in Hm2 by exact Lb.
  apply runs_seq.
  set (i1 := upd _ 0 (S tp)). assert (I0 : i1 0 = S tp) by reflexivity. assert (I1 : i1 1 = mp) by reflexivity. assert (I2 : i1 2 = match uo with Some u => S u | None => 0 end) by reflexivity. clearbody i1.
  set (d1 := upd _ 4 w). assert (D0 : d1 0 = b2n va) by reflexivity. assert (D1 : d1 1 = b2n vb) by reflexivity. clearbody d1.
  assert (HX : forall Q' : state -> Prop, (forall d2 m3 sh, heap L' (S N0) m3 (cset c k0 sh) -> length sh = 2 -> bytes_ok sh -> d2 0 = b2n va -> d2 1 = b2n vb ->
      match uo with
      | Some u => m <- rd (msgs_of c) u ;; bit <- getBit m mp ;; s <- setBit (w16_bytes w0) u bit ;; bytes_w16 s
      | None => Ok w0
      end = Ok (word_of sh) -> Q' (mkState i1 d2 pv1 m3 (S N0) (S u1))) ->
    runs U (If (CLt (IC 0) (IV 2)) (c_getBit 5 (PV 1 (ISub (IV 2) (IC 1))) (IV 1) ;; c_setBit (P0 2) (ISub (IV 2) (IC 1)) (DV 5)) Skip)%c (mkState i1 d1 pv1 m2 (S N0) (S u1)) Q').
  { intros Q' HQ'. eapply runs_if; [reflexivity|]. csimpl. rewrite I2. destruct uo as [u|].
    - change (0 <? S u) with true. cbv iota. specialize (Huo u eq_refl). destruct (proj2 HM' u Huo) as [Su Qu]. assert (Su1 : S u - 1 = u) by lia.
      apply runs_seq. eapply (h_getBit n0 m0 U L' _ _ _ _ _ u).
      { exact Hm2. } { lia. } { csimpl. rewrite P1e, I2, Su1. exact Qu. } { csimpl. rewrite I1, Su. exact Hmp. }
      csimpl. rewrite I1. rewrite !cset_neq by lia.
      eapply (h_setBit n0 m0 U L' _ _ _ _ _ k0 (bit (c u) mp)).
      { exact Hm2. } { exact C1. } { csimpl. rewrite P2e. reflexivity. } { csimpl. rewrite I2, Su1, S1. lia. } { csimpl. apply b2n_mod. }
      csimpl. rewrite I2, Su1, cset_eq. intros m3 Hm3. eapply (HQ' _ m3 (set_bit (w16_bytes w0) u (bit (c u) mp))).
      + apply (heap_ext _ _ _ _ _ _ _ Hm3). intros j Hj. unfold cset. destruct (j =? k0); reflexivity.
      + rewrite length_set_bit, length_w16_bytes. reflexivity.
      + apply bytes_ok_set_bit, bytes_ok_w16.
      + exact D0.
      + exact D1.
      + rewrite rd_msgs, bind_Ok by exact Huo. rewrite getBit_ok by (apply lt_div8; rewrite (heap_len _ _ _ _ _ _ H u ltac:(lia)), (proj1 (proj2 HM u Huo)); exact Hmp).
        rewrite bind_Ok, setBit_ok by (apply lt_div8; rewrite length_w16_bytes; lia). rewrite bind_Ok. apply bytes_w16_word. rewrite length_set_bit, length_w16_bytes. reflexivity.
    - change (0 <? 0) with false. cbv iota. apply runs_skip. eapply (HQ' d1 m2 (w16_bytes w0)).
      + apply (heap_ext _ _ _ _ _ _ _ Hm2). intros j Hj. unfold cset. destruct (j =? k0); reflexivity.
      + apply length_w16_bytes.
      + apply bytes_ok_w16.
      + exact D0.
      + exact D1.
      + rewrite word_of_w16_bytes by exact W0. reflexivity. }
  apply HX. clear HX. intros d2 m3 sh H3 Lsh Bsh E0 E1 Fs.
  assert (LD : forall d m c' (Q' : state -> Prop) uu, heap L' (S N0) m c' -> c' k0 = sh -> forall i, Q' (mkState i (upd d 6 (word_of sh)) pv1 m (S N0) uu) ->
    runs U (Ld 2 6 (P0 2)) (mkState i d pv1 m (S N0) uu) Q').
  { intros d m c' Q' uu Hm Ec i HQ'. apply (h_ldw n0 m0 U L' 2 6 (P0 2) (reg L' k0) 0 sh _ c'); csimpl.
    { rewrite P2e, eq_plus0. reflexivity. } { right. exists k0. auto. } { lia. } { lia. } { rewrite R1. reflexivity. } { exact Hm. }
    cbn [skipn]. rewrite firstn_all2 by lia. exact HQ'. }
  apply runs_seq. apply (LD _ _ (cset c k0 sh)); [exact H3|apply cset_eq|].
  apply runs_seq. apply (h_wordToMsgs L' (DV 6) 1 1 _ (cset c k0 sh) (word_of sh)).
  { csimpl. rewrite P1e. exact HM'. } { reflexivity. } { csimpl. rewrite I1. exact Hmp. } { exact H3. }
  csimpl. rewrite I1. intros m4 u4 c4 H4 C4 F4.
  assert (K4 : c4 k0 = sh) by (rewrite C4 by exact H16; apply cset_eq).
  apply runs_seq. apply (LD _ _ c4); [exact H4|exact K4|].
  apply runs_seq, runs_parity16; [csimpl; apply word_of_lt2; auto|]. csimpl.
  apply runs_dset. csimpl. set (cf := fun k => if k <? k0 then c4 k else c k).
  exists c4. split; [exact H4|]. intros m' Hm'. rewrite I0.
  assert (M4 : msgs_of (cset c k0 sh) = msgs_of c) by (apply msgs_ext; intros i Hi; apply cset_neq; lia). rewrite M4 in F4.
  set (o := xorb (parity16 (word_of sh)) (va && vb)).
  match goal with |- context [N.modulo ?t (wmod 1)] => assert (Eo : N.modulo t (wmod 1) = b2n o) end.
  { rewrite E0, E1. unfold o. destruct va, vb, (parity16 (word_of sh)); reflexivity. }
  rewrite Eo. apply (HQ m' _ cf o).
  - apply (heap_ext _ _ _ _ _ _ _ Hm'). intros k Hk. unfold cf. rewrite (proj2 (Nat.ltb_lt k k0)) by exact Hk. reflexivity.
  - intros k Hk. unfold cf. destruct (Nat.ltb_spec k k0) as [Hlt|]; [|reflexivity]. rewrite C4 by exact Hk. apply cset_neq. lia.
  - unfold p3_mpc_AND. rewrite (tapesToWord_ok E P HE) by auto. fold w. rewrite bind_Ok. cbn [ms_unopened ms_msgs ms_pos]. fold w0. rewrite Fs, bind_Ok, F4, bind_Ok.
    assert (Mf : msgs_of cf = msgs_of c4) by (apply msgs_ext; intros i Hi; unfold cf; rewrite (proj2 (Nat.ltb_lt i k0)) by lia; reflexivity). rewrite Mf. reflexivity.
Qed.
End A.
