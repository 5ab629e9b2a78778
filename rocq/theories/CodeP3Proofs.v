(** Reading the random tapes on memory with pointers. *)

From Coq Require Import List NArith Arith Bool Lia ZifyBool ZifyNat ZifyN.
From Verif Require Import Base Params Env Spec LowMC Picnic3 MiniC CodeLowMC CodeZkb CodeP3 CodeSpec BaseFacts ParamFacts LowMCFacts
  ZkbChal P3Tape P3Online MiniCFacts CodeRules CodeLowMCProofs CodeHeap CodeZkbProofs CodeZkbMpc.
Import ListNotations.
Local Opaque pack.

(** ** Words of 16 bits *)
Lemma lxor_shr16 x k : (x < 65536)%N -> (N.lxor x (N.shiftr x k) < 65536)%N.
Proof.
  intros H. destruct (N.eq_dec (N.lxor x (N.shiftr x k)) 0) as [->|Hne]; [reflexivity|].
  change 65536%N with (2 ^ 16)%N in *. apply N.log2_lt_pow2; [lia|].
  apply N.le_lt_trans with (N.max (N.log2 x) (N.log2 (N.shiftr x k))); [apply N.log2_lxor|].
  apply N.max_lub_lt.
  - destruct (N.eq_dec x 0) as [->|Hx]; [reflexivity|]. apply N.log2_lt_pow2; [lia|exact H].
  - rewrite N.log2_shiftr. destruct (N.eq_dec x 0) as [->|Hx]; [reflexivity|].
    pose proof (proj1 (N.log2_lt_pow2 x 16 ltac:(lia)) H). lia.
Qed.
Lemma wmod2 : wmod 2 = 65536%N.
Proof. reflexivity. Qed.

Lemma runs_parity16 U x e st (Q : state -> Prop) : let v := deval (iv st) (dv st) e in (v < 65536)%N ->
  Q (set_dv st (upd (dv st) x (b2n (parity16 v)))) -> runs U (c_parity16 x e) st Q.
Proof.
  cbv zeta. set (v := deval (iv st) (dv st) e). intros Hv HQ. unfold c_parity16. eapply runs_call; [reflexivity|]. cbn [map]. fold v. unfold parity16_body.
  apply runs_seq, runs_dset, runs_seq, runs_dset, runs_seq, runs_dset, runs_seq, runs_dset, runs_dset. csimpl.
  rewrite wmod2. change (N.of_nat 1) with 1%N. change (N.of_nat 2) with 2%N. change (N.of_nat 4) with 4%N. change (N.of_nat 8) with 8%N.
  set (y1 := N.lxor v (N.shiftr v 1)). assert (H1 : (y1 < 65536)%N) by (apply lxor_shr16, Hv). rewrite (N.mod_small y1) by exact H1.
  set (y2 := N.lxor y1 (N.shiftr y1 2)). assert (H2 : (y2 < 65536)%N) by (apply lxor_shr16, H1). rewrite (N.mod_small y2) by exact H2.
  set (y3 := N.lxor y2 (N.shiftr y2 4)). assert (H3 : (y3 < 65536)%N) by (apply lxor_shr16, H2). rewrite (N.mod_small y3) by exact H3.
  set (y4 := N.lxor y3 (N.shiftr y3 8)). assert (H4 : (y4 < 65536)%N) by (apply lxor_shr16, H3). rewrite (N.mod_small y4) by exact H4.
  assert (Hp : N.modulo (N.land y4 1) 65536 = b2n (parity16 v)).
  { unfold parity16. cbv zeta. fold y1. fold y2. fold y3. fold y4. change 1%N with (N.ones 1). rewrite N.land_ones. change (2 ^ 1)%N with 2%N. change (N.ones 1) with 1%N.
    pose proof (N.mod_lt y4 2 ltac:(discriminate)) as Hm. destruct (N.eq_dec (y4 mod 2) 0) as [->|Hz]; [reflexivity|]. replace (y4 mod 2)%N with 1%N by lia. reflexivity. }
  rewrite Hp. exact HQ.
Qed.

Lemma word_of_2 (b : bytes) : length b = 2 -> word_of b = (nth 0 b 0 + 256 * nth 1 b 0)%N.
Proof. destruct b as [|x [|y [|z b]]]; try discriminate. intros _. cbn [word_of nth]. lia. Qed.
Lemma word_of_w16 (b : bytes) f : length b = 2 -> bytes_ok b -> (forall k, k < 16 -> bit b k = f k) -> word_of b = w16 f.
Proof. intros H1 H2 H3. rewrite word_of_2 by exact H1. unfold w16. rewrite <- (pack_unique b 2 f) by auto. reflexivity. Qed.
Lemma w16_lt f : (w16 f < 65536)%N.
Proof.
  unfold w16. destruct (pack_spec 2 f) as (H1 & H2 & _). pose proof (bytes_ok_nth (pack 2 f) 0 H2) as A. pose proof (bytes_ok_nth (pack 2 f) 1 H2) as B.
  unfold byte in A, B. lia.
Qed.
Lemma bytes_of_word_2 v : bytes_of_word 2 v = w16_bytes v.
Proof. reflexivity. Qed.

(** ** Where something is stored *)
Section Z.
Variables (n0 : nat) (m0 : memory) (U : nat -> nat -> bytes) (HU : locals_ok U).
Notation heap := (heap n0 m0).
Notation ro := (ro n0 m0).

(** Outside all regions, or one of them. *)
Definition at_ (L : layout) (c : nat -> bytes) (q : ptr) (l : bytes) : Prop := ro L q l \/ exists k, k < cnt L /\ q = reg L k /\ l = c k.

Lemma at_pts L n m c q l : heap L n m c -> at_ L c q l -> pts n m q l.
Proof. intros H [Hq|(k & Hk & -> & ->)]; [exact (heap_ro _ _ _ _ _ _ _ _ H Hq)|exact (heap_pts _ _ _ _ _ _ H k Hk)]. Qed.

Lemma at_ext L c c' q l : at_ L c q l -> (forall k, k < cnt L -> c' k = c k) -> at_ L c' q l.
Proof. intros [H|(k & Hk & -> & ->)] Hc; [left; exact H|]. right. exists k. rewrite Hc by exact Hk. auto. Qed.

Lemma at_push L n s c b q l : n0 <= n -> at_ L c q l -> at_ (push L (n, 0) s) (cset c (cnt L) b) q l.
Proof.
  intros Hn [H|(k & Hk & -> & ->)]; [left; apply ro_push; auto|]. right. exists k. cbn [push cnt reg].
  rewrite upd_neq, cset_neq by lia. split; [lia|auto].
Qed.

(** Sixteen pointers to byte strings. *)
Definition row_at (L : layout) (c : nat -> bytes) (ps : list ptr) (tl : list bytes) : Prop :=
  forall i, i < 16 -> exists q, nth_error ps i = Some q /\ at_ L c q (nth i tl []).

Lemma row_push L n s c b ps tl : n0 <= n -> row_at L c ps tl -> row_at (push L (n, 0) s) (cset c (cnt L) b) ps tl.
Proof. intros Hn H i Hi. destruct (H i Hi) as (q & A & B). exists q. split; [exact A|]. apply at_push; auto. Qed.
Lemma row_ext L c c' ps tl : row_at L c ps tl -> (forall k, k < cnt L -> c' k = c k) -> row_at L c' ps tl.
Proof. intros H Hc i Hi. destruct (H i Hi) as (q & A & B). exists q. split; [exact A|]. apply (at_ext _ _ _ _ _ B Hc). Qed.

Variable L : layout.

Lemma h_tapesToWord x tapes pos y c tl (Q : state -> Prop) :
  row_at L c (pv y tapes) tl -> (forall i, i < 16 -> iv y pos < 8 * length (nth i tl [])) -> heap L (nx y) (mm y) c ->
  (forall m' u, heap L (nx y) m' c ->
     Q (mkState (upd (iv y) pos (S (iv y pos))) (upd (dv y) x (w16 (fun i => tbit tl i (iv y pos)))) (pv y) m' (nx y) u)) ->
  runs U (c_tapesToWord x tapes pos) y Q.
Proof.
  intros HT Hpos H HQ. unfold c_tapesToWord. eapply runs_call; [reflexivity|]. cbn [map ieval]. unfold tapesToWord_body.
  set (ps := iv y pos) in *. assert (Hn : n0 <= nx y) by apply H.
  eapply (h_loc n0 m0 U L _ _ _ _ c); [exact HU|exact H|]. cbn [iv dv pv mm nx ct ieval]. intros b Lb Bb.
  set (N0 := nx y) in *. set (L' := push L (N0, 0) 2). set (k0 := cnt L).
  assert (H1 : heap L' (S N0) (upd (mm y) N0 b) (cset c k0 b)).
  { pose proof (heap_push n0 m0 L N0 (mm y) c b H Bb) as H1. rewrite Lb in H1. exact H1. }
  assert (C1 : k0 < cnt L') by (unfold L'; cbn [push cnt]; lia).
  assert (R1 : reg L' k0 = (N0, 0) /\ sz L' k0 = 2) by (unfold L'; cbn [push reg sz]; rewrite !upd_eq; auto). destruct R1 as [R1 S1].
  set (pv1 := upd (args [] [pv y tapes]) 1 [(N0, 0)]).
  apply runs_seq. apply runs_forn with (I := fun k z => pv z = pv1 /\ nx z = S N0 /\ iv z 0 = ps /\
    exists sh, heap L' (S N0) (mm z) (cset c k0 sh) /\ forall j, j < k -> bit sh j = tbit tl j ps).
  - csimpl. repeat (split; [reflexivity|]). exists b. split; [exact H1|]. intros j Hj. lia.
  - csimpl. intros k z Hk (Z1 & Z2 & Z3 & sh & Hz & Hsh). destruct z as [zi zd zp zm zn zc]. cbn [iv dv pv mm nx ct] in *. subst zp zn.
    assert (Lsh : length sh = 2). { pose proof (heap_len _ _ _ _ _ _ Hz k0 C1) as A. rewrite cset_eq, S1 in A. exact A. }
    destruct (HT k Hk) as (q & Eq & Aq). assert (Aq' : at_ L' (cset c k0 sh) q (nth k tl [])) by (apply at_push; auto).
    apply runs_seq. apply (runs_getBit U 0 _ _ _ q (nth k tl [])).
    { unfold pv1. csimpl. exact Eq. }
    { csimpl. exact (at_pts _ _ _ _ _ _ Hz Aq'). }
    { csimpl. rewrite Z3. apply lt_div8. apply Hpos, Hk. }
    csimpl. rewrite Z3. eapply (h_setBit n0 m0 U L' _ _ _ _ (cset c k0 sh) k0 (tbit tl k ps)).
    { exact Hz. } { exact C1. } { unfold pv1. csimpl. rewrite R1. reflexivity. } { csimpl. rewrite S1. lia. } { csimpl. unfold tbit. apply b2n_mod. }
    csimpl. intros m' Hm. repeat (split; [first [reflexivity|exact Z3]|]). rewrite cset_eq in Hm.
    exists (set_bit sh k (tbit tl k ps)). split.
    + apply (heap_ext _ _ _ _ _ _ _ Hm). intros j Hj. unfold cset. destruct (j =? k0); reflexivity.
    + intros j Hj. rewrite bit_set_bit by (rewrite Lsh; apply lt_div8; lia). destruct (Nat.eqb_spec j k) as [->|Hne]; [reflexivity|]. apply Hsh. lia.
  - csimpl. intros z (Z1 & Z2 & Z3 & sh & Hz & Hsh). destruct z as [zi zd zp zm zn zc]. cbn [iv dv pv mm nx ct] in *. subst zp zn.
    assert (Lsh : length sh = 2). { pose proof (heap_len _ _ _ _ _ _ Hz k0 C1) as A. rewrite cset_eq, S1 in A. exact A. }
    assert (Bsh : bytes_ok sh). { pose proof (heap_ok _ _ _ _ _ _ Hz k0 C1) as A. rewrite cset_eq in A. exact A. }
    pose proof (heap_pts _ _ _ _ _ _ Hz k0 C1) as Psh. rewrite cset_eq, R1 in Psh.
    apply runs_seq, runs_iset. csimpl. eapply (runs_ld U 2 _ _ (N0, 0)).
    { unfold pv1. csimpl. reflexivity. }
    { csimpl. apply (pts_valid (S N0) _ _ sh); auto; lia. }
    csimpl. rewrite (rdmem_pts (S N0) zm (N0, 0) sh 2 Psh) by lia. rewrite firstn_all2 by lia.
    rewrite (word_of_w16 sh (fun i => tbit tl i ps)) by auto.
    exists (cset c k0 sh). split; [exact Hz|]. intros m' Hm. rewrite Z3, Nat.add_1_r. apply HQ.
    apply (heap_ext _ _ _ _ _ _ _ Hm). intros j Hj. rewrite cset_neq by (unfold k0; lia). reflexivity.
Qed.

(** Parity of the tapes, bit by bit, into region [k]. *)
Fixpoint parity_bits (tl : list bytes) (pos k : nat) (out : bytes) : bytes :=
  match k with O => out | S j => set_bit (parity_bits tl pos j out) j (parity16 (w16 (fun i => tbit tl i (pos + j)))) end.
Lemma length_parity_bits tl pos k out : length (parity_bits tl pos k out) = length out.
Proof. induction k as [|k IH]; cbn [parity_bits]; [reflexivity|]. rewrite length_set_bit. exact IH. Qed.

Lemma parity_bits_model E P tl pos k out : env_bytes_ok E -> rows 16 (p3_tapeSize P) tl -> pos + k <= 8 * p3_tapeSize P -> k <= 8 * length out ->
  tapesToParityBits E out k (mkTapes tl pos) = Ok (parity_bits tl pos k out, mkTapes tl (pos + k)).
Proof.
  intros HE Ht Hp Hk. unfold tapesToParityBits. induction k as [|k IH]; [cbn; rewrite Nat.add_0_r; reflexivity|].
  rewrite for_loop_snoc, IH by lia. rewrite bind_Ok. rewrite (tapesToWord_ok E P HE) by (auto; lia). rewrite bind_Ok.
  cbn [Nat.add]. rewrite setBit_ok by (rewrite length_parity_bits; apply lt_div8; lia). rewrite bind_Ok. cbn [parity_bits]. do 3 f_equal. lia.
Qed.

Lemma h_tapesToParityBits p e tapes pos y c k tl (Q : state -> Prop) : let cn := ieval (iv y) e in
  peval (iv y) (pv y) p = Some (reg L k) -> k < cnt L -> cn <= 8 * sz L k ->
  (forall d, row_at L (cset c k d) (pv y tapes) tl) -> (forall i, i < 16 -> iv y pos + cn <= 8 * length (nth i tl [])) -> heap L (nx y) (mm y) c ->
  (forall m' u, heap L (nx y) m' (cset c k (parity_bits tl (iv y pos) cn (c k))) ->
     Q (mkState (upd (iv y) pos (iv y pos + cn)) (dv y) (pv y) m' (nx y) u)) ->
  runs U (c_tapesToParityBits p e tapes pos) y Q.
Proof.
  cbv zeta. set (cn := ieval (iv y) e). intros Ep Hk Hcn HT Hpos H HQ. unfold c_tapesToParityBits.
  eapply runs_call; [cbn [pargevals pargeval pevals]; rewrite Ep; reflexivity|]. cbn [map ieval]. fold cn. unfold tapesToParityBits_body.
  set (ps := iv y pos) in *. set (pv1 := args [] [[reg L k]; pv y tapes]).
  apply runs_forn with (I := fun j z => pv z = pv1 /\ nx z = nx y /\ iv z 1 = ps + j /\ heap L (nx y) (mm z) (cset c k (parity_bits tl ps j (c k)))).
  - csimpl. repeat (split; [first [reflexivity|lia]|]). apply (heap_ext _ _ _ _ _ _ _ H). intros j Hj. cbn [parity_bits]. unfold cset. destruct (Nat.eqb_spec j k) as [->|]; reflexivity.
  - csimpl. intros j z Hj (Z1 & Z2 & Z3 & Hz). destruct z as [zi zd zp zm zn zc]. cbn [iv dv pv mm nx ct] in *. subst zp zn.
    apply runs_seq. apply (h_tapesToWord 0 1 1 _ (cset c k (parity_bits tl ps j (c k))) tl).
    { unfold pv1. csimpl. apply HT. }
    { csimpl. rewrite Z3. intros i Hi. specialize (Hpos i Hi). lia. }
    { exact Hz. }
    csimpl. rewrite Z3. intros m' u Hm. apply runs_seq, runs_parity16; [csimpl; apply w16_lt|]. csimpl.
    eapply (h_setBit n0 m0 U L _ _ _ _ _ k (parity16 (w16 (fun i => tbit tl i (ps + j))))).
    { exact Hm. } { exact Hk. } { unfold pv1. csimpl. reflexivity. } { csimpl. lia. } { csimpl. apply b2n_mod. }
    csimpl. intros m2 Hm2. repeat (split; [first [reflexivity|lia]|]). rewrite cset_eq in Hm2.
    apply (heap_ext _ _ _ _ _ _ _ Hm2). intros i Hi. cbn [parity_bits]. unfold cset. destruct (i =? k); reflexivity.
  - csimpl. intros z (Z1 & Z2 & Z3 & Hz). rewrite Z2, Z3. apply HQ. exact Hz.
Qed.
End Z.
