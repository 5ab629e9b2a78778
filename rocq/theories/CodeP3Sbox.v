(** The masks of the state, and the S-boxes of the online computation of Picnic3, on memory with pointers. *)

From Coq Require Import List NArith Arith Bool Lia ZifyBool ZifyNat ZifyN.
From Verif Require Import Base Params Env Spec LowMC Picnic3 MiniC CodeLowMC CodeP3 CodeSpec BaseFacts ParamFacts LowMCFacts
  ZkbChal P3Tape P3Aux P3Online MiniCFacts CodeRules CodeLowMCProofs CodeHeap CodeZkbProofs CodeZkbBits CodeZkbMpc CodeP3Proofs CodeP3Lin CodeP3On.
Import ListNotations.
Local Opaque pack.

(** Word [i] of an array of 16-bit words. *)
Definition word_at (l : bytes) (i : nat) : N := word_of (firstn 2 (skipn (2 * i) l)).

Lemma word_2_nth o : forall l : bytes, o + 2 <= length l -> word_of (firstn 2 (skipn o l)) = (nth o l 0 + 256 * nth (S o) l 0)%N.
Proof.
  induction o as [|o IH]; intros [|a l] H; cbn [length] in H; try lia.
  - destruct l as [|b l]; cbn [length] in H; [lia|]. cbn [skipn firstn word_of nth]. lia.
  - cbn [skipn]. rewrite IH by lia. reflexivity.
Qed.
Lemma word_at_nth l i : 2 * i + 2 <= length l -> word_at l i = (nth (2 * i) l 0 + 256 * nth (S (2 * i)) l 0)%N.
Proof. apply word_2_nth. Qed.

Lemma word_at_blit b j v i : 2 * j + 2 <= length b -> 2 * i + 2 <= length b -> (v < 65536)%N ->
  word_at (blit_list b (2 * j) (bytes_of_word 2 v)) i = if i =? j then v else word_at b i.
Proof.
  intros Hj Hi Hv. pose proof (length_bytes_of_word 2 v) as Lw.
  rewrite !word_at_nth by (rewrite ?length_blit_list; lia). rewrite !nth_blit_list by lia. rewrite Lw.
  destruct (Nat.eqb_spec i j) as [->|Hne].
  - rewrite (proj2 (Nat.leb_le (2 * j) (2 * j))), (proj2 (Nat.ltb_lt (2 * j) (2 * j + 2))), (proj2 (Nat.leb_le (2 * j) (S (2 * j)))), (proj2 (Nat.ltb_lt (S (2 * j)) (2 * j + 2))) by lia.
    rewrite Nat.sub_diag. replace (S (2 * j) - 2 * j) with 1 by lia. rewrite <- (word_of_w16_bytes v Hv) at 3. change (w16_bytes v) with (bytes_of_word 2 v). cbn [andb bytes_of_word nth word_of]. lia.
  - assert (X : (2 * j <=? 2 * i) && (2 * i <? 2 * j + 2) = false) by lia. assert (Y : (2 * j <=? S (2 * i)) && (S (2 * i) <? 2 * j + 2) = false) by lia. rewrite X, Y. reflexivity.
Qed.

Section A.
Variables (n0 : nat) (m0 : memory) (U : nat -> nat -> bytes) (HU : locals_ok U).
Notation heap := (heap n0 m0).
Notation ro := (ro n0 m0).
Variables (E : env) (P : paramset).
Hypothesis HP3 : wfP3 P.
Hypothesis HE : env_bytes_ok E.
Let HP := w3_wfP P HP3.
Let tS := p3_tapeSize P.
Let aB := andSizeBytes P.
Variables (L : layout) (tl : list bytes) (ps : list ptr).
Hypothesis HT : rows 16 tS tl.
Hypothesis Hps : forall i, i < 16 -> exists q, nth_error ps i = Some q /\ ro L q (nth i tl []).

Lemma h_tapesToWords sh e tapes pos y c ks (Q : state -> Prop) : let p := iv y pos in let n := ieval (iv y) e in
  peval (iv y) (pv y) sh = Some (reg L ks) -> ks < cnt L -> sz L ks = 2 * n -> snd (reg L ks) mod 2 = 0 -> pv y tapes = ps ->
  p + n <= 8 * tS -> heap L (nx y) (mm y) c ->
  (forall m' u c' ws, heap L (nx y) m' c' -> (forall k, k <> ks -> c' k = c k) ->
     tapesToWords E n (mkTapes tl p) = Ok (ws, mkTapes tl (p + n)) -> length ws = n ->
     (forall i, i < n -> word_at (c' ks) i = nth i ws 0%N /\ (nth i ws 0 < 65536)%N) ->
     Q (mkState (upd (iv y) pos (p + n)) (dv y) (pv y) m' (nx y) u)) ->
  runs U (c_tapesToWords sh e tapes pos) y Q.
Proof.
  cbv zeta. set (p := iv y pos). set (n := ieval (iv y) e). intros Es Hks Sks Aks Ep Hp H HQ. unfold c_tapesToWords.
  eapply runs_call; [cbn [pargevals pargeval pevals]; rewrite Es, Ep; reflexivity|]. cbn [map ieval]. fold p n. unfold tapesToWords_body.
  set (pv1 := args [] [[reg L ks]; ps]). set (v := fun q => w16 (fun i => tbit tl i (p + q))).
  apply runs_forn with (I := fun k z => pv z = pv1 /\ nx z = nx y /\ iv z 1 = p + k /\
    exists c', heap L (nx y) (mm z) c' /\ (forall j, j <> ks -> c' j = c j) /\ forall i, i < k -> word_at (c' ks) i = v i).
  - cbn [iv dv pv mm nx]. split; [reflexivity|]. split; [reflexivity|]. split; [cbn; lia|]. exists c. split; [exact H|]. split; [auto|]. intros i Hi. lia.
  - csimpl. intros k z Hk (Z1 & Z2 & Z3 & c' & Hz & Hc' & Hw). destruct z as [zi zd zp zm zn zc]. cbn [iv dv pv mm nx ct] in *. subst zp zn.
    apply runs_seq. apply (h_tapesToWord n0 m0 U HU L 0 1 1 _ c' tl).
    { csimpl. unfold pv1. csimpl. apply row_ro, Hps. }
    { csimpl. intros i Hi. rewrite (proj1 (proj2 HT i Hi)), Z3. fold tS. clear - Hp Hk; lia. }
    { exact Hz. }
    csimpl. rewrite Z3. intros m1 u1 H1.
    apply (h_stw n0 m0 U L 2 _ _ _ c' ks (2 * k)).
    { unfold elem. csimpl. unfold pv1. csimpl. destruct (reg L ks). reflexivity. }
    { exact Hks. } { lia. } { rewrite Sks. clear - Hk; lia. } { rewrite Nat.add_mod, (Nat.mul_comm 2 k), Nat.mod_mul, Aks by discriminate. reflexivity. } { exact H1. }
    csimpl. intros m2 H2. fold (v k) in H2. flat.
    split; [reflexivity|]. split; [reflexivity|]. split; [clear; lia|]. eexists. split; [exact H2|]. split; [intros j Hj; rewrite cset_neq by exact Hj; auto|].
    intros i Hi. rewrite cset_eq. pose proof (heap_len _ _ _ _ _ _ Hz ks Hks) as Lk. rewrite Sks in Lk.
    rewrite word_at_blit by (try (unfold v; apply w16_lt); rewrite Lk; clear - Hi Hk; lia). destruct (Nat.eqb_spec i k) as [->|Hne]; [reflexivity|]. apply Hw. lia.
  - csimpl. intros z (Z1 & Z2 & Z3 & c' & Hz & Hc' & Hw). destruct z as [zi zd zp zm zn zc]. cbn [iv dv pv mm nx ct] in *. subst zn. rewrite Z3.
    apply (HQ _ _ c' (map v (seq 0 n)) Hz Hc').
    + apply (tapesToWords_ok E P HE); auto.
    + rewrite map_length, seq_length. reflexivity.
    + intros i Hi. rewrite (nth_indep _ 0%N (v 0)) by (rewrite map_length, seq_length; exact Hi). rewrite map_nth, seq_nth by exact Hi. split; [apply Hw, Hi|unfold v; apply w16_lt].
Qed.

Lemma h_p3_mpc_sbox uo pst psh tapes msgs tpos mpos unop y c ks kh ws (Q : state -> Prop) : let tp := iv y tpos in let mp := iv y mpos in
  let n := 3 * numSboxes P in
  peval (iv y) (pv y) pst = Some (reg L ks) -> peval (iv y) (pv y) psh = Some (reg L kh) -> ks < cnt L -> kh < cnt L -> 16 <= ks -> 16 <= kh -> ks <> kh ->
  n <= 8 * sz L ks -> 2 * n <= sz L kh -> snd (reg L kh) mod 2 = 0 -> pv y tapes = ps -> msgs_at P L (pv y msgs) ->
  n <= length ws -> (forall i, i < n -> word_at (c kh) i = nth i ws 0%N /\ (nth i ws 0 < 65536)%N) ->
  (forall u, uo = Some u -> u < 16) -> iv y unop = match uo with Some u => S u | None => 0 end ->

  tp + n <= 8 * tS -> mp + n <= 8 * aB -> heap L (nx y) (mm y) c ->
  (forall m' u c', heap L (nx y) m' c' -> (forall k, 16 <= k -> k <> ks -> c' k = c k) ->
     p3_mpc_sbox E P (c ks) ws (mkTapes tl tp) (mkMsgs (msgs_of c) mp uo) = Ok (c' ks, mkTapes tl (tp + n), mkMsgs (msgs_of c') (mp + n) uo) ->
     Q (mkState (upd (upd (iv y) tpos (tp + n)) mpos (mp + n)) (dv y) (pv y) m' (nx y) u)) ->
  runs U (c_p3_mpc_sbox P pst psh tapes msgs tpos mpos unop) y Q.
Proof.
  cbv zeta. set (tp := iv y tpos). set (mp := iv y mpos). set (m := numSboxes P).
  intros Es Eh Hks Hkh G16s G16h Nsh Sks Skh Akh Ep HM Lws Hws Huo Eu Hp Hmp H HQ. unfold c_p3_mpc_sbox.
  eapply runs_call; [cbn [pargevals pargeval pevals]; rewrite Es, Eh, Ep; reflexivity|]. cbn [map ieval]. fold tp mp. rewrite Eu. unfold p3_mpc_sbox_body. fold m.
  unfold p3_mpc_sbox in HQ. fold m in HQ. set (body := fun k (s : bytes * tapes_t * msgs_t) => _) in HQ.
  set (pv1 := args [] [[reg L ks]; [reg L kh]; ps; pv y msgs]). set (o0 := match uo with Some u => S u | None => 0 end) in *.
  apply runs_for with (I := fun k z => pv z = pv1 /\ nx z = nx y /\ iv z 0 = tp + 3 * k /\ iv z 1 = mp + 3 * k /\ iv z 2 = o0 /\
    exists c', heap L (nx y) (mm z) c' /\ (forall j, 16 <= j -> j <> ks -> c' j = c j) /\
      for_loop k 0 body (c ks, mkTapes tl tp, mkMsgs (msgs_of c) mp uo) = Ok (c' ks, mkTapes tl (tp + 3 * k), mkMsgs (msgs_of c') (mp + 3 * k) uo)).
  - cbn [iv dv pv mm nx]. split; [reflexivity|]. split; [reflexivity|]. split; [cbn; lia|]. split; [cbn; lia|]. split; [reflexivity|].
    exists c. split; [exact H|]. split; [auto|]. cbn [for_loop]. rewrite Nat.mul_0_r, !Nat.add_0_r. reflexivity.
  - csimpl. pose proof (iters3 P) as J3. fold m in J3. rewrite J3. clear J3. intros k z Hk (Z1 & Z2 & Z3 & Z4 & Z5 & c' & Hz & Hc' & Hl). destruct z as [zi zd zp zm zn zc]. cbn [iv dv pv mm nx ct] in *. subst zp zn. cbn [Nat.add].
    set (i := k * 3). assert (Ji : i + 2 < 3 * m) by (clear - Hk; unfold i; lia). assert (Ki : 3 * k = i) by (unfold i; apply Nat.mul_comm). rewrite Ki in *.
    assert (Q0 : tp + i < 8 * tS /\ S (tp + i) < 8 * tS /\ S (S (tp + i)) < 8 * tS) by (clear - Hp Ji; lia). destruct Q0 as (Q0 & Q1 & Q2).
    assert (M0 : mp + i < 8 * aB /\ S (mp + i) < 8 * aB /\ S (S (mp + i)) < 8 * aB) by (clear - Hmp Ji; lia). destruct M0 as (M0 & M1 & M2).
    assert (Q3 : S (S (S (tp + i))) = tp + 3 * S k) by (clear; unfold i; lia). assert (M3 : S (S (S (mp + i))) = mp + 3 * S k) by (clear; unfold i; lia).
    assert (Ec : c' kh = c kh) by (apply Hc'; auto).
    assert (LW : forall j x (Q' : state -> Prop) i1 d1 u1 ie, j < 3 * m -> ieval i1 ie = j -> Q' (mkState i1 (upd d1 x (nth j ws 0%N)) pv1 zm (nx y) u1) ->
      runs U (Ld 2 x (elem 2 (P0 1) ie)) (mkState i1 d1 pv1 zm (nx y) u1) Q').
    { intros j x Q' i1 d1 u1 ie Hj Ej HQ'. apply (h_ldw n0 m0 U L 2 x _ (reg L kh) (2 * j) (c' kh) _ c'); cbn [iv dv pv mm nx ct].
      { unfold elem. csimpl. rewrite Ej. unfold pv1. csimpl. destruct (reg L kh). reflexivity. }
      { right. exists kh. auto. } { lia. } { rewrite (heap_len _ _ _ _ _ _ Hz kh Hkh). clear - Hj Skh; lia. }
      { rewrite Nat.add_mod, (Nat.mul_comm 2 j), Nat.mod_mul, Akh by discriminate. reflexivity. } { exact Hz. }
      flat. fold (word_at (c' kh) j). rewrite Ec, (proj1 (Hws j Hj)). exact HQ'. }
    Local Ltac gb Hz Hks Ji Sks := apply runs_seq; eapply h_getBit; [exact Hz|exact Hks|csimpl; reflexivity|csimpl; clear - Ji Sks; lia|]; csimpl.
    assert (Jc : i < 3 * m /\ i + 1 < 3 * m) by (clear - Ji; lia). destruct Jc as [J0 J1].
    set (wa := nth (i + 2) ws 0%N). set (wb := nth (i + 1) ws 0%N). set (wc := nth i ws 0%N).
    assert (Wa : (wa < 65536)%N) by (apply Hws, Ji). assert (Wb : (wb < 65536)%N) by (apply Hws, J1). assert (Wc : (wc < 65536)%N) by (apply Hws, J0).
    set (va := bit (c' ks) (i + 2)). set (vb := bit (c' ks) (i + 1)). set (vc := bit (c' ks) i).
    gb Hz Hks Ji Sks. fold va. apply runs_seq, (LW (i + 2)); [exact Ji|reflexivity|]. fold wa.
    gb Hz Hks Ji Sks. fold vb. apply runs_seq, (LW (i + 1)); [exact J1|reflexivity|]. fold wb.
    gb Hz Hks Ji Sks. fold vc. apply runs_seq, (LW i); [exact J0|reflexivity|]. fold wc.
    match goal with |- runs U _ (mkState ?f ?g _ _ _ _) _ => set (i1 := f); set (d1 := g) end.
    assert (D : d1 0 = b2n va /\ d1 2 = b2n vb /\ d1 4 = b2n vc /\ d1 1 = wa /\ d1 3 = wb /\ d1 5 = wc) by (repeat split; reflexivity). destruct D as (D0 & D2 & D4 & D1 & D3 & D5). clearbody d1.
    assert (I : i1 0 = tp + i /\ i1 1 = mp + i /\ i1 2 = o0 /\ i1 3 = i) by (unfold i1; csimpl; auto). destruct I as (I0 & I1 & I2 & I3). clearbody i1.
    apply runs_seq. eapply (h_p3_mpc_AND n0 m0 U HU E P HP3 HE L tl uo _ _ _ _ _ _ _ _ _ _ _ c' va vb wa wb).
    { exact HT. } { exact Hps. } { exact HM. } { exact Huo. } { exact I2. } { csimpl; exact D0. } { csimpl; exact D2. } { csimpl; exact D1. } { csimpl; exact D3. } { exact Wa. } { exact Wb. }
    { csimpl. rewrite I0. exact Q0. } { csimpl. rewrite I1. exact M0. } { exact Hz. }
    csimpl. rewrite I0, I1. intros ma ua ca oab Ha Ca Fa.
    apply runs_seq. eapply (h_p3_mpc_AND n0 m0 U HU E P HP3 HE L tl uo _ _ _ _ _ _ _ _ _ _ _ ca vb vc wb wc).
    { exact HT. } { exact Hps. } { exact HM. } { exact Huo. } { csimpl. exact I2. } { csimpl; exact D2. } { csimpl; exact D4. } { csimpl; exact D3. } { csimpl; exact D5. } { exact Wb. } { exact Wc. }
    { csimpl. exact Q1. } { csimpl. exact M1. } { exact Ha. }
    csimpl. intros mb ub cb obc Hb Cb Fb.
    apply runs_seq. eapply (h_p3_mpc_AND n0 m0 U HU E P HP3 HE L tl uo _ _ _ _ _ _ _ _ _ _ _ cb vc va wc wa).
    { exact HT. } { exact Hps. } { exact HM. } { exact Huo. } { csimpl. exact I2. } { csimpl; exact D4. } { csimpl; exact D0. } { csimpl; exact D5. } { csimpl; exact D1. } { exact Wc. } { exact Wa. }
    { csimpl. exact Q2. } { csimpl. exact M2. } { exact Hb. }
    csimpl. intros mc uc cc oca Hc Cc Fc.
    apply runs_seq, runs_dset, runs_seq, runs_dset, runs_seq, runs_dset. csimpl. rewrite D0, D2, D4.
    set (vd := xorb va obc). set (ve := xorb (xorb va vb) oca). set (vf := xorb (xorb (xorb va vb) vc) oab).
    Local Ltac sb v H Hk := eapply (h_setBit _ _ _ _ _ _ _ _ _ _ v); [exact H|exact Hk|csimpl; reflexivity| | |].
    apply runs_seq. sb vd Hc Hks.
    { csimpl. rewrite I3. clear - Ji Sks; lia. } { csimpl. unfold vd. destruct va, obc; reflexivity. }
    csimpl. rewrite I3. intros md Hd.
    apply runs_seq. sb ve Hd Hks.
    { csimpl. rewrite I3. clear - Ji Sks; lia. } { csimpl. unfold ve. destruct va, vb, oca; reflexivity. }
    csimpl. rewrite I3. intros me He.
    sb vf He Hks.
    { csimpl. rewrite I3. clear - Ji Sks; lia. } { csimpl. unfold vf. destruct va, vb, vc, oab; reflexivity. }
    csimpl. rewrite I3. intros mf Hf. rewrite !cset_eq in Hf.
    assert (Cks : cc ks = c' ks) by (rewrite Cc, Cb, Ca by exact G16s; reflexivity).
    split; [reflexivity|]. split; [reflexivity|]. split; [exact Q3|]. split; [exact M3|]. split; [exact I2|].
    eexists. split; [exact Hf|]. split.
    + intros j Hj Hne. rewrite !cset_neq by exact Hne. rewrite Cc, Cb, Ca by exact Hj. apply Hc'; auto.
    + rewrite for_loop_snoc, Hl, bind_Ok. cbn [Nat.add]. unfold body. rewrite Ki. cbv zeta.
      pose proof (heap_len _ _ _ _ _ _ Hz ks Hks) as Ls.
      rewrite !getBit_ok by (apply lt_div8; rewrite Ls; clear - Ji Sks; lia). rewrite !bind_Ok. fold va vb vc.
      rewrite !(rd_ok ws _ 0%N) by (clear - Ji Lws; lia). rewrite !bind_Ok. fold wa wb wc.
      rewrite Fa, bind_Ok, Fb, bind_Ok, Fc, bind_Ok. fold vd ve vf.
      rewrite !setBit_ok by (apply lt_div8; rewrite ?length_set_bit, Ls; clear - Ji Sks; lia). rewrite !bind_Ok.
      rewrite setBit_ok by (apply lt_div8; rewrite ?length_set_bit, Ls; clear - Ji Sks; lia). rewrite !bind_Ok.
      rewrite setBit_ok by (apply lt_div8; rewrite ?length_set_bit, Ls; clear - Ji Sks; lia). rewrite !bind_Ok.
      rewrite cset_eq, Cks, Q3, M3. f_equal. f_equal. f_equal. apply msgs_ext. intros j Hj. rewrite !cset_neq by (clear - Hj G16s; lia). reflexivity.
  - csimpl. pose proof (iters3 P) as J3. fold m in J3. rewrite J3. intros z (Z1 & Z2 & Z3 & Z4 & Z5 & c' & Hz & Hc' & Hl). rewrite Z2, Z3, Z4.
    apply (HQ _ _ c' Hz Hc' Hl).
Qed.
End A.
