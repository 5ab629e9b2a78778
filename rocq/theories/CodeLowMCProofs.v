(** The LowMC code with pointers computes what the model of LowMC computes. *)

From Coq Require Import List NArith Arith Bool Lia ZifyBool ZifyNat ZifyN.
From Verif Require Import Base Params Env Spec LowMC MiniC CodeLowMC CodeSpec BaseFacts ParamFacts LowMCFacts MiniCFacts CodeRules.
Import ListNotations.

(** ** Bits *)
Lemma word_of_1 l i : i < length l -> word_of (firstn 1 (skipn i l)) = nth i l 0%N.
Proof.
  intros H. rewrite <- (Nat.add_0_r i) at 2. rewrite <- nth_skipn. destruct (skipn i l) as [|x r]; [|cbn; lia].
  reflexivity.
Qed.

Lemma rdmem_part n m b q l o k : pts n m (b, q) l -> o + k <= length l -> rdmem m (b, q + o) k = firstn k (skipn o l).
Proof.
  intros H Hk. pose proof (pts_sub n m _ l o k H Hk) as Hs. cbn [fst snd] in Hs.
  assert (Hl : length (firstn k (skipn o l)) = k) by (rewrite firstn_length, skipn_length; lia).
  rewrite (rdmem_pts n m _ _ k Hs) by lia. rewrite <- Hl at 1. apply firstn_all.
Qed.

Lemma valid_part n m b q l o k a : pts n m (b, q) l -> 0 < k -> o + k <= length l -> (q + o) mod a = 0 -> valid m k a (b, q + o) = true.
Proof.
  intros H Hk Hl Ha. assert (Hs : length (firstn k (skipn o l)) = k) by (rewrite firstn_length, skipn_length; lia).
  apply (pts_valid n m _ (firstn k (skipn o l)) k a); auto; [|lia]. apply (pts_sub n m _ l o k H Hl).
Qed.

Lemma land_1 x : N.land x 1 = b2n (N.testbit x 0).
Proof. rewrite <- land_1_eqb. change 1%N with (N.ones 1). rewrite N.land_ones. pose proof (N.mod_lt x (2 ^ 1) ltac:(discriminate)).
  change (2 ^ 1)%N with 2%N in *. destruct (x mod 2)%N as [|[p|p|]]; cbn; try lia; reflexivity. Qed.

Lemma mod1 a : a mod 1 = 0.
Proof. pose proof (Nat.mod_upper_bound a 1 ltac:(lia)). lia. Qed.

Section B.
Variable U : nat -> nat -> bytes.

Lemma runs_getBit x p i st q l (Q : state -> Prop) : peval (iv st) (pv st) p = Some q -> pts (nx st) (mm st) q l ->
  ieval (iv st) i / 8 < length l -> Q (set_dv st (upd (dv st) x (b2n (bit l (ieval (iv st) i))))) ->
  runs U (c_getBit x p i) st Q.
Proof.
  intros Hp Hl Hi HQ. unfold c_getBit. eapply runs_call; [cbn [pargevals pargeval pevals]; rewrite Hp; reflexivity|].
  cbn [map]. set (j := ieval (iv st) i) in *. apply runs_seq. destruct q as [b o].
  eapply (runs_ld U 1 0 _ (b, o + (j / 8 + 0))).
  - cbn [iv pv elem P0 peval nth_error args nth ieval]. rewrite Nat.mul_1_l, Nat.add_0_r. reflexivity.
  - cbn [mm]. rewrite Nat.add_0_r. apply (valid_part _ _ b o l (j / 8) 1 1 Hl); [lia|lia|apply mod1].
  - apply runs_dset. csimpl.
    replace (N.land _ _) with (b2n (bit l j)); [exact HQ|].
    rewrite land_1, N.shiftr_spec', N.add_0_l. rewrite Nat.add_0_r.
    rewrite (rdmem_part _ _ b o l (j / 8) 1 Hl) by lia. rewrite word_of_1 by lia. reflexivity.
Qed.

Lemma set_bit_byte x v k j : (k < 8)%N -> (j < 8)%N ->
  N.testbit (N.lor (N.land x (N.lxor (N.modulo (N.modulo (N.shiftl 1 k) (wmod 4)) (wmod 4)) (wmod 4 - 1)))
                   (N.modulo (N.shiftl (b2n v) k) (wmod 4))) j =
  N.testbit (N.lor (N.ldiff x (N.shiftl 1 k)) (N.shiftl (b2n v) k)) j.
Proof.
  intros Hk Hj. rewrite !N.lor_spec, N.land_spec, N.ldiff_spec, N.lxor_spec.
  change (wmod 4) with (2 ^ 32)%N. rewrite !N.mod_pow2_bits_low by lia.
  replace (N.testbit (2 ^ 32 - 1) j) with true; [destruct (N.testbit (N.shiftl 1 k) j); reflexivity|].
  change (2 ^ 32 - 1)%N with (N.ones 32). rewrite N.ones_spec_low by lia. reflexivity.
Qed.

Lemma skipn_nth {A} (l : list A) i d : i < length l -> skipn i l = nth i l d :: skipn (i + 1) l.
Proof. revert i; induction l as [|a l IH]; intros i H; [cbn in H; lia|]. destruct i; [reflexivity|]. cbn in H |- *. apply IH. lia. Qed.

Lemma runs_setBit p i e st q l v (Q : state -> Prop) : peval (iv st) (pv st) p = Some q -> pts (nx st) (mm st) q l ->
  ieval (iv st) i / 8 < length l -> N.modulo (deval (iv st) (dv st) e) 256 = b2n v ->
  (forall m', pts (nx st) m' q (set_bit l (ieval (iv st) i) v) -> chg (nx st) (mm st) m' [(q, length l)] -> Q (set_mm st m')) ->
  runs U (c_setBit p i e) st Q.
Proof.
  intros Hp Hl Hi Hv HQ. unfold c_setBit. eapply runs_call; [cbn [pargevals pargeval pevals]; rewrite Hp; reflexivity|].
  cbn [map]. set (j := ieval (iv st) i) in *. apply runs_seq. destruct q as [b o].
  eapply (runs_ld U 1 1 _ (b, o + (j / 8 + 0))).
  { cbn [iv pv elem P0 peval nth_error args nth ieval]. rewrite Nat.mul_1_l, Nat.add_0_r. reflexivity. }
  { cbn [mm]. rewrite Nat.add_0_r. apply (valid_part _ _ b o l (j / 8) 1 1 Hl); [lia|lia|apply mod1]. }
  eapply (runs_st U 1 _ (b, o + j / 8)).
  { cbn [set_dv iv pv elem P0 peval nth_error args nth ieval]. rewrite Nat.mul_1_l. reflexivity. }
  { cbn [set_dv mm]. apply (valid_part _ _ b o l (j / 8) 1 1 Hl); [lia|lia|apply mod1]. }
  cbn [set_mm set_dv iv dv pv mm nx ct copy_back]. set (w := bytes_of_word 1 _).
  destruct (wrmem_part (nx st) (mm st) (b, o) l (j / 8) w Hl) as [A [B _]]; [unfold w; rewrite length_bytes_of_word; lia|discriminate|].
  cbn [fst snd] in A, B. apply HQ; [|exact B]. replace (set_bit l j v) with (firstn (j / 8) l ++ w ++ skipn (j / 8 + length w) l); [exact A|].
  unfold set_bit. rewrite <- list_set_firstn by lia. unfold w. rewrite length_bytes_of_word.
  cbn [bytes_of_word app]. f_equal. f_equal. csimpl.
  rewrite Nat.add_0_r. rewrite (rdmem_part _ _ b o l (j / 8) 1 Hl) by lia. rewrite word_of_1 by lia.
  change (wmod 1) with 256%N. rewrite Hv. pose proof (mod8_lt j).
  apply byte_ext; try (apply N.mod_lt; discriminate). intros k Hk. rewrite !testbit_mod256 by lia. apply set_bit_byte; lia.
Qed.
End B.

(** ** Words *)
Lemma word_of_lxor x : forall y, bytes_ok x -> bytes_ok y -> length x = length y ->
  word_of (lxor_list x y) = N.lxor (word_of x) (word_of y).
Proof.
  induction x as [|a x IH]; intros [|b y] Hx Hy Hl; try discriminate; [reflexivity|].
  inversion Hx; subst; inversion Hy; subst. cbn [lxor_list word_of]. rewrite IH; auto. apply N.bits_inj. intros k.
  change 256%N with (2 ^ 8)%N. rewrite N.lxor_spec, !testbit_cons; auto; [|apply byte_lxor; auto].
  destruct (k <? 8)%N; rewrite N.lxor_spec; reflexivity.
Qed.

Lemma bytes_of_word_of l : bytes_ok l -> bytes_of_word (length l) (word_of l) = l.
Proof.
  induction l as [|a l IH]; intros H; [reflexivity|]. inversion H; subst. cbn [length bytes_of_word word_of].
  rewrite (N.mul_comm 256), N.mod_add, N.div_add by discriminate. rewrite N.mod_small, N.div_small by auto.
  rewrite N.add_0_l. f_equal. apply IH. auto.
Qed.

Lemma firstn_add {A} (l : list A) a b : firstn (a + b) l = firstn a l ++ firstn b (skipn a l).
Proof. revert l; induction a as [|a IH]; intros l; [reflexivity|]. destruct l; [now rewrite !firstn_nil|]. cbn. f_equal. apply IH. Qed.

Lemma lxor_list_app a : forall a' b b', length a = length a' -> lxor_list (a ++ b) (a' ++ b') = lxor_list a a' ++ lxor_list b b'.
Proof. induction a as [|x a IH]; intros [|y a'] b b' H; try discriminate; [reflexivity|]. cbn. f_equal. apply IH. auto. Qed.

Lemma skipn_add {A} (l : list A) a b : skipn (a + b) l = skipn b (skipn a l).
Proof. revert l; induction a as [|a IH]; intros l; [reflexivity|]. destruct l; [now rewrite !skipn_nil|]. cbn. apply IH. Qed.

Lemma pts_firstn n m p l k : pts n m p l -> pts n m p (firstn k l).
Proof.
  intros [A B]. split; [exact A|]. intros i x Hx. apply B.
  assert (Hi : i < length (firstn k l)) by (apply nth_error_Some; congruence). rewrite firstn_length in Hi.
  rewrite <- Hx. rewrite <- (firstn_skipn k l) at 1. apply nth_error_app1. rewrite firstn_length. lia.
Qed.

Lemma mod4_add a k : a mod 4 = 0 -> (a + 4 * k) mod 4 = 0.
Proof. intros H. rewrite Nat.mul_comm, Nat.mod_add by lia. exact H. Qed.

(** Equal or disjoint. *)

Section X.
Variable U : nat -> nat -> bytes.

(** One word of a loop over words. *)
Lemma runs_ldw x p st b o l k (Q : state -> Prop) : peval (iv st) (pv st) p = Some (b, o + 4 * k) -> pts (nx st) (mm st) (b, o) l ->
  4 * k + 4 <= length l -> o mod 4 = 0 -> Q (set_dv st (upd (dv st) x (word_of (firstn 4 (skipn (4 * k) l))))) -> runs U (Ld 4 x p) st Q.
Proof.
  intros Hp Hl Hk Ho HQ. eapply runs_ld; [exact Hp| |].
  - apply (valid_part _ _ b o l (4 * k) 4 4 Hl); [lia|lia|apply mod4_add, Ho].
  - rewrite (rdmem_part _ _ b o l (4 * k) 4 Hl) by lia. exact HQ.
Qed.

Lemma xor_array_loop n m q0 q1 q2 a0 a1 a2 len c da (Q : state -> Prop) :
  length a0 = 4 * len -> length a1 = 4 * len -> length a2 = 4 * len -> bytes_ok a1 -> bytes_ok a2 ->
  pts n m q0 a0 -> pts n m q1 a1 -> pts n m q2 a2 -> eqdisj q0 q1 (4 * len) -> eqdisj q0 q2 (4 * len) ->
  snd q0 mod 4 = 0 -> snd q1 mod 4 = 0 -> snd q2 mod 4 = 0 ->
  (forall i d m', pts n m' q0 (lxor_list a1 a2) -> chg n m m' [(q0, 4 * len)] ->
     Q (mkState i d (args [] [[q0]; [q1]; [q2]]) m' n c)) ->
  runs U xor_array_body (mkState (args 0 [len]) da (args [] [[q0]; [q1]; [q2]]) m n c) Q.
Proof.
  intros L0 L1 L2 B1 B2 H0 H1 H2 D1 D2 A0 A1 A2 HQ. unfold xor_array_body.
  apply runs_for with (I := fun k y => pv y = args [] [[q0]; [q1]; [q2]] /\ iv y 0 = len /\ nx y = n /\ ct y = c /\
    pts n (mm y) q0 (lxor_list (firstn (4 * k) a1) (firstn (4 * k) a2) ++ skipn (4 * k) a0) /\ chg n m (mm y) [(q0, 4 * len)]).
  - csimpl. repeat (split; [reflexivity|]). split; [exact H0|apply chg_refl].
  - csimpl. rewrite Nat.sub_0_r. replace ((len + (1 - 1)) / 1) with len by (rewrite Nat.div_1_r; lia).
    intros k y Hk (Hpv & Hiv & Hnx & Hct & Hm & Hc).
    assert (Hrd : forall q a, pts n m q a -> length a = 4 * len -> eqdisj q0 q (4 * len) ->
      pts n (mm y) (fst q, snd q + 4 * k) (firstn 4 (skipn (4 * k) a))).
    { intros q a Hq La [<-|D].
      - assert (a = a0) as ->.
        { apply (list_ext 0%N); [lia|]. intros i Hi. destruct Hq as [_ Hq], H0 as [_ H0'].
          specialize (Hq i _ (nth_error_nth' a i 0%N Hi)). specialize (H0' i _ (nth_error_nth' a0 i 0%N ltac:(lia))). congruence. }
        apply pts_app in Hm. destruct Hm as (_ & Hm & _).
        assert (Hl : length (lxor_list (firstn (4 * k) a1) (firstn (4 * k) a2)) = 4 * k).
        { rewrite length_lxor_list; rewrite !firstn_length; lia. }
        rewrite Hl in Hm. assert (skipn (4 * k) a0 <> []). { intros He. apply (f_equal (@length N)) in He. rewrite skipn_length in He. cbn in He. lia. }
        specialize (Hm H). apply pts_firstn, Hm.
      - apply (pts_sub n (mm y) q a (4 * k) 4); [|lia]. apply (pts_chg1 n m (mm y) _ _ q a Hc Hq). rewrite La. exact D. }
    pose proof (Hrd q1 a1 H1 L1 D1) as R1. pose proof (Hrd q2 a2 H2 L2 D2) as R2. clear Hrd.
    destruct q0 as [b0 o0], q1 as [b1 o1], q2 as [b2 o2]. cbn [fst snd] in *.
    assert (LW : forall a : bytes, length a = 4 * len -> length (firstn 4 (skipn (4 * k) a)) = 4) by (intros a La; rewrite firstn_length, skipn_length; lia).
    apply runs_seq. apply (runs_ldw 0 _ _ b1 (o1 + 4 * k) (firstn 4 (skipn (4 * k) a1)) 0).
    { csimpl. rewrite Hpv. csimpl. peq. }
    { csimpl. rewrite Hnx. exact R1. } { rewrite LW by auto; lia. } { apply mod4_add, A1. }
    apply runs_seq. apply (runs_ldw 1 _ _ b2 (o2 + 4 * k) (firstn 4 (skipn (4 * k) a2)) 0).
    { csimpl. rewrite Hpv. csimpl. peq. }
    { csimpl. rewrite Hnx. exact R2. } { rewrite LW by auto; lia. } { apply mod4_add, A2. }
    assert (Hl : length (lxor_list (firstn (4 * k) a1) (firstn (4 * k) a2) ++ skipn (4 * k) a0) = 4 * len).
    { rewrite app_length, length_lxor_list; rewrite ?firstn_length, ?skipn_length; lia. }
    eapply (runs_st U 4 _ (b0, o0 + 4 * k)).
    { csimpl. rewrite Hpv. csimpl. peq. }
    { csimpl. apply (valid_part n _ b0 o0 _ (4 * k) 4 4 Hm); [lia|lia|apply mod4_add, A0]. }
    csimpl. rewrite !Nat.mul_0_r. cbn [skipn]. rewrite !(firstn_all2 (firstn 4 _)) by (rewrite LW by auto; lia).
    set (w := bytes_of_word 4 _).
    assert (Hw : w = lxor_list (firstn 4 (skipn (4 * k) a1)) (firstn 4 (skipn (4 * k) a2))).
    { unfold w. rewrite <- word_of_lxor.
      - rewrite <- (bytes_of_word_of (lxor_list _ _)) at 2.
        + rewrite length_lxor_list, !LW by (rewrite ?LW; auto). reflexivity.
        + apply bytes_ok_lxor; apply bytes_ok_slice; auto.
      - apply bytes_ok_slice; auto.
      - apply bytes_ok_slice; auto.
      - rewrite !LW; auto. }
    assert (Lw : length w = 4) by apply length_bytes_of_word.
    destruct (wrmem_part n (mm y) (b0, o0) _ (4 * k) w Hm) as [A [B _]]; [lia|intros He; rewrite He in Lw; discriminate|].
    cbn [fst snd] in A, B.
    split; [exact Hpv|]. split; [exact Hiv|]. split; [exact Hnx|]. split; [exact Hct|]. split.
    + replace (4 * S k) with (4 * k + 4) by lia. rewrite Lw in A.
      rewrite !firstn_add, lxor_list_app by (rewrite !firstn_length; lia). rewrite <- Hw.
      assert (Hf : length (lxor_list (firstn (4 * k) a1) (firstn (4 * k) a2)) = 4 * k) by (rewrite length_lxor_list; rewrite !firstn_length; lia).
      rewrite firstn_app, Hf, Nat.sub_diag, firstn_O, app_nil_r, firstn_all2 in A by lia.
      replace (skipn (4 * k + 4) (lxor_list (firstn (4 * k) a1) (firstn (4 * k) a2) ++ skipn (4 * k) a0)) with (skipn (4 * k + 4) a0) in A.
      2:{ rewrite skipn_app, Hf. rewrite (skipn_all2 (lxor_list _ _)) by lia. replace (4 * k + 4 - 4 * k) with 4 by lia. apply skipn_add. }
      rewrite <- app_assoc. exact A.
    + eapply chg_trans; [exact Hc|exact B| |]; intros x Hx; [exact Hx|]. rewrite Hl in Hx. exact Hx.
  - csimpl. rewrite Nat.sub_0_r. replace ((len + (1 - 1)) / 1) with len by (rewrite Nat.div_1_r; lia).
    intros [i d p m' n' c'] (Hpv & Hiv & Hnx & Hct & Hm & Hc). csimpl_in Hpv. csimpl_in Hnx. csimpl_in Hct. csimpl_in Hm. csimpl_in Hc. subst p n' c'.
    apply HQ; [|exact Hc]. rewrite (firstn_all2 a1), (firstn_all2 a2), (skipn_all2 a0), app_nil_r in Hm by lia. exact Hm.
Qed.

Lemma runs_xor_array po p1 p2 e st q0 q1 q2 a0 a1 a2 (Q : state -> Prop) : let len := ieval (iv st) e in
  peval (iv st) (pv st) po = Some q0 -> peval (iv st) (pv st) p1 = Some q1 -> peval (iv st) (pv st) p2 = Some q2 ->
  length a0 = 4 * len -> length a1 = 4 * len -> length a2 = 4 * len -> bytes_ok a1 -> bytes_ok a2 ->
  pts (nx st) (mm st) q0 a0 -> pts (nx st) (mm st) q1 a1 -> pts (nx st) (mm st) q2 a2 -> eqdisj q0 q1 (4 * len) -> eqdisj q0 q2 (4 * len) ->
  snd q0 mod 4 = 0 -> snd q1 mod 4 = 0 -> snd q2 mod 4 = 0 ->
  (forall m', pts (nx st) m' q0 (lxor_list a1 a2) -> chg (nx st) (mm st) m' [(q0, 4 * len)] -> Q (set_mm st m')) ->
  runs U (c_xor_array po p1 p2 e) st Q.
Proof.
  cbv zeta. intros E0 E1 E2 L0 L1 L2 B1 B2 H0 H1 H2 D1 D2 A0 A1 A2 HQ.
  eapply runs_call; [cbn [pargevals pargeval pevals]; rewrite E0, E1, E2; reflexivity|].
  cbn [map]. apply (xor_array_loop _ _ q0 q1 q2 a0 a1 a2); auto.
Qed.

(** ** Parity *)
Lemma runs_parity32 x e st (Q : state -> Prop) :
  Q (set_dv st (upd (dv st) x (b2n (parity32 (deval (iv st) (dv st) e))))) -> runs U (c_parity32 x e) st Q.
Proof.
  intros HQ. unfold c_parity32. eapply runs_call; [reflexivity|]. cbn [map]. set (v := deval (iv st) (dv st) e) in *. unfold parity32_body.
  do 5 (apply runs_seq, runs_dset; csimpl). apply runs_dset. csimpl.
  replace (_ mod wmod 1)%N with (b2n (parity32 v)); [exact HQ|]. unfold parity32. rewrite land_1_eqb, land_1.
  change (N.of_nat 1) with 1%N. change (N.of_nat 2) with 2%N. change (N.of_nat 4) with 4%N. change (N.of_nat 8) with 8%N. change (N.of_nat 16) with 16%N.
  destruct (N.testbit _ 0); reflexivity.
Qed.
End X.

(** ** Matrices *)
Lemma for_loop_snoc {S} n i0 (body : nat -> S -> res S) s :
  for_loop (Datatypes.S n) i0 body s = (x <- for_loop n i0 body s ;; body (i0 + n) x).
Proof.
  replace (Datatypes.S n) with (n + 1) by lia. rewrite for_loop_app. apply bind_ext. intros x _. cbn [for_loop].
  destruct (body (i0 + n) x); reflexivity.
Qed.

Lemma word_of_word l k : 4 * k + 4 <= length l -> rdw l k = Ok (word_of (firstn 4 (skipn (4 * k) l))).
Proof.
  intros H. rewrite rdw_ok by exact H. unfold word.
  rewrite <- (Nat.add_0_r (4 * k)) at 1. rewrite <- !nth_skipn. set (r := skipn (4 * k) l).
  assert (Hr : 4 <= length r) by (unfold r; rewrite skipn_length; lia).
  destruct r as [|a [|b [|c [|d r]]]]; cbn in Hr; try lia. cbn [nth firstn word_of]. f_equal. lia.
Qed.

Section M.
Variable U : nat -> nat -> bytes.
Variable P : paramset.
Hypothesis HP : wfP P.
Let n := stateSizeBits P.
Let W := stateSizeWords P.

(** The environment whose uninitialised buffers contain [t]. *)
Definition temp_env (E : env) (t : bytes) : env :=
  mkEnv (xof E) (fun _ _ _ => t) (LMatrix E) (LMatrixInv E) (KMatrix E) (KMatrixInv E) (RConstant E).

(** [z] differs from [y] in data and in index variables other than 0. *)
Definition fr (y z : state) : Prop := pv z = pv y /\ mm z = mm y /\ nx z = nx y /\ ct z = ct y /\ iv z 0 = iv y 0.

Lemma iters a : (a - 0 + (1 - 1)) / 1 = a.
Proof. rewrite Nat.div_1_r. lia. Qed.
Lemma iters' a b : (a - b + (1 - 1)) / 1 = a - b.
Proof. rewrite Nat.div_1_r. lia. Qed.

Section Row.
Variables (st M : bytes) (b1 o1 b2 o2 i : nat) (y : state).
Hypothesis Hp1 : pv y 1 = [(b1, o1)].
Hypothesis Hp2 : pv y 2 = [(b2, o2)].
Hypothesis Hst : pts (nx y) (mm y) (b1, o1) st.
Hypothesis HM : pts (nx y) (mm y) (b2, o2) M.
Hypothesis Hi : iv y 0 = i.
Hypothesis Hin : i < n.
Hypothesis Lst : n <= 8 * length st.
Hypothesis LM : length M = n * (4 * W).
Hypothesis A1 : o1 mod 4 = 0.
Hypothesis A2 : o2 mod 4 = 0.

Lemma row_bounds : 32 * (n / 32) <= n < 32 * (n / 32) + 32 /\ n <= 32 * W /\ (i + 1) * (4 * W) <= length M /\ 4 * (n / 32) <= length st.
Proof.
  pose proof (Nat.div_mod n 32 ltac:(lia)). pose proof (Nat.mod_upper_bound n 32 ltac:(lia)). split; [lia|].
  pose proof (wf_W2 P HP). split; [exact H1|]. split; [rewrite LM; apply Nat.mul_le_mono_r; lia|]. lia.
Qed.

Let body1 := fun j prod => (s <- rdw st j ;; m <- rdw M (i * W + j) ;; Ok (N.lxor prod (N.land s m))).
Let body2 := fun j prod => (bs <- getBit st j ;; bm <- getBit M (i * W * WORD_SIZE_BITS + j) ;; Ok (N.lxor prod (b2n (bs && bm)))).

Lemma row_loop1 (Q : state -> Prop) : dv y 0 = 0%N ->
  (forall z v, fr y z -> for_loop (n / 32) 0 body1 0%N = Ok v -> dv z 0 = v -> Q z) ->
  runs U (For 1 (IC 0) (IC (n / 32)) 1
         (Seq (Ld 4 1 (elem 4 (P0 1) (IV 1))) (Seq (Ld 4 2 (elem 4 (P0 2) (IAdd (IMul (IV 0) (IC W)) (IV 1))))
          (DSet 0 (dxor (DV 0) (dand (DV 1) (DV 2))))))) y Q.
Proof.
  intros H0 HQ. destruct row_bounds as (B1 & B2 & B3 & B4).
  apply runs_for with (I := fun k z => fr y z /\ exists v, for_loop k 0 body1 0%N = Ok v /\ dv z 0 = v).
  - split; [repeat split|]. exists 0%N. auto.
  - csimpl. rewrite iters. intros k z Hk ((Z1 & Z2 & Z3 & Z4 & Z5) & v & Hv & Hd).
    apply runs_seq. apply (runs_ldw U 1 _ _ b1 o1 st k).
    { csimpl. rewrite Z1, Hp1. csimpl. peq. } { csimpl. rewrite Z2, Z3. exact Hst. } { lia. } { exact A1. }
    apply runs_seq. apply (runs_ldw U 2 _ _ b2 o2 M (i * W + k)).
    { csimpl. rewrite Z1, Hp2, Z5, Hi. csimpl. peq. } { csimpl. rewrite Z2, Z3. exact HM. } { nia. } { exact A2. }
    apply runs_dset. csimpl. split; [repeat split; csimpl; auto|].
    exists (N.lxor v (N.land (word_of (firstn 4 (skipn (4 * k) st))) (word_of (firstn 4 (skipn (4 * (i * W + k)) M))))).
    split; [|rewrite Hd; reflexivity]. rewrite for_loop_snoc, Hv, bind_Ok. unfold body1. cbn [Nat.add].
    rewrite (word_of_word st k) by lia. rewrite bind_Ok. rewrite (word_of_word M) by nia. reflexivity.
  - csimpl. rewrite iters. intros z (Hf & v & Hv & Hd). exact (HQ z v Hf Hv Hd).
Qed.

Lemma row_loop2 v0 (Q : state -> Prop) : dv y 0 = v0 ->
  (forall z v, fr y z -> for_loop (n - n / 32 * 32) (n / 32 * 32) body2 v0 = Ok v -> dv z 0 = v -> Q z) ->
  runs U (For 1 (IC (n / 32 * 32)) (IC n) 1
         (Seq (c_getBit 1 (P0 1) (IV 1)) (Seq (c_getBit 2 (P0 2) (IAdd (IMul (IMul (IV 0) (IC W)) (IC 32)) (IV 1)))
          (Seq (DSet 3 (DCast 1 (dand (DV 1) (DV 2)))) (DSet 0 (dxor (DV 0) (DV 3))))))) y Q.
Proof.
  intros H0 HQ. destruct row_bounds as (B1 & B2 & B3 & B4).
  apply runs_for with (I := fun k z => fr y z /\ exists v, for_loop k (n / 32 * 32) body2 v0 = Ok v /\ dv z 0 = v).
  - split; [repeat split|]. exists v0. auto.
  - csimpl. rewrite iters'. intros k z Hk ((Z1 & Z2 & Z3 & Z4 & Z5) & v & Hv & Hd).
    set (j := n / 32 * 32 + k). assert (Hj : j < n) by (unfold j; lia).
    apply runs_seq. apply (runs_getBit U 1 _ _ _ (b1, o1) st).
    { csimpl. rewrite Z1, Hp1. reflexivity. } { csimpl. rewrite Z2, Z3. exact Hst. } { csimpl. rewrite Nat.mul_1_r. fold j. apply lt_div8. lia. }
    csimpl. apply runs_seq. apply (runs_getBit U 2 _ _ _ (b2, o2) M).
    { csimpl. rewrite Z1, Hp2. reflexivity. } { csimpl. rewrite Z2, Z3. exact HM. } { csimpl. rewrite Nat.mul_1_r, Z5, Hi. fold j. apply lt_div8. nia. }
    csimpl. apply runs_seq, runs_dset, runs_dset. csimpl. rewrite Nat.mul_1_r, Z5, Hi. fold j.
    split; [repeat split; csimpl; auto|].
    exists (N.lxor v (b2n (bit st j && bit M (i * W * 32 + j)))). split.
    + rewrite for_loop_snoc, Hv, bind_Ok. unfold body2. fold j. change WORD_SIZE_BITS with 32. rewrite getBit_ok by (apply lt_div8; lia). rewrite bind_Ok.
      rewrite getBit_ok by (apply lt_div8; nia). reflexivity.
    + rewrite Hd. f_equal. destruct (bit st j), (bit M (i * W * 32 + j)); reflexivity.
  - csimpl. rewrite iters'. intros z (Hf & v & Hv & Hd). exact (HQ z v Hf Hv Hd).
Qed.
End Row.

Definition set_mc (st : state) (m : memory) (c : nat) : state := mkState (iv st) (dv st) (pv st) m (nx st) c.

Hypothesis HU : locals_ok U.

Lemma temp_env_ok E k : env_bytes_ok E -> length (U k 64) = 64 -> forall s M out r,
  bytes_ok s -> bytes_ok M -> bytes_ok out -> n <= 8 * length s -> length M = n * (4 * W) -> 4 * W <= length out ->
  matrix_mul (mkEnv (xof E) (fun _ _ j => U k j) (LMatrix E) (LMatrixInv E) (KMatrix E) (KMatrixInv E) (RConstant E)) P out s M = Ok r ->
  matrix_mul E P out s M = Ok r.
Proof.
  intros HE Lk s M out r Hs HM Ho L1 L2 L3 Hr.
  pose proof (matrix_mul_spec E P HP out s M HE Hs HM L1 L2 L3) as H1.
  set (E' := mkEnv _ _ _ _ _ _ _) in Hr. assert (HE' : env_bytes_ok E').
  { destruct HE as [A B]. split; [exact A|]. intros a b c. cbn. apply HU. }
  pose proof (matrix_mul_spec E' P HP out s M HE' Hs HM L1 L2 L3) as H2. rewrite Hr in H2. cbn [ok] in H2.
  apply ok_ex in H1. destruct H1 as (r' & -> & A1 & A2 & A3). destruct H2 as (B1 & B2 & B3). f_equal.
  apply bits_ext; auto; [congruence|]. intros i Hi. rewrite A3, B3. reflexivity.
Qed.

Lemma runs_matrix_mul E po p1 p2 y q0 q1 q2 out s M (Q : state -> Prop) :
  peval (iv y) (pv y) po = Some q0 -> peval (iv y) (pv y) p1 = Some q1 -> peval (iv y) (pv y) p2 = Some q2 ->
  env_bytes_ok E -> bytes_ok out -> bytes_ok s -> bytes_ok M ->
  length out = 4 * W -> n <= 8 * length s -> length M = n * (4 * W) ->
  pts (nx y) (mm y) q0 out -> pts (nx y) (mm y) q1 s -> pts (nx y) (mm y) q2 M -> snd q1 mod 4 = 0 -> snd q2 mod 4 = 0 ->
  (forall m' c' r, matrix_mul E P out s M = Ok r -> pts (nx y) m' q0 r -> chg (nx y) (mm y) m' [(q0, 4 * W)] -> Q (set_mc y m' c')) ->
  runs U (c_matrix_mul P po p1 p2) y Q.
Proof.
  intros E0 E1 E2 HE Bo Bs BM Lo Ls LM H0 H1 H2 A1 A2 HQ.
  destruct (HU (ct y) 64) as [LU BU]. pose proof (wf_W1 P HP) as W1. pose proof (wf_W2 P HP) as W2. pose proof (wf_W3 P HP) as W3. pose proof (wf_W0 P HP) as W0. pose proof (wf_n P HP) as Hn0.
  fold n in W1, W2, Hn0. fold W in W1, W2, W3, W0.
  unfold c_matrix_mul. eapply runs_call; [cbn [pargevals pargeval pevals]; rewrite E0, E1, E2; reflexivity|].
  cbn [map]. unfold matrix_mul_body. fold n W. apply runs_loc. cbn [iv dv pv mm nx ct ieval].
  set (N0 := nx y) in *. set (m0 := mm y) in *. set (t := U (ct y) 64) in *.
  set (pv0 := upd (args [] [[q0]; [q1]; [q2]]) 3 [(N0, 0)]).
  apply runs_seq. eapply (runs_st U 4 _ (N0, 0 + 4 * (W - 1))).
  { csimpl. reflexivity. }
  { csimpl. apply (valid_part (S N0) _ N0 0 t (4 * (W - 1)) 4 4 (pts_local N0 m0 t)); [lia|lia|apply mod4_add; reflexivity]. }
  csimpl. set (m1 := wrmem (upd m0 N0 t) (N0, 0 + 4 * (W - 1)) (bytes_of_word 4 0)).
  destruct (wrmem_part (S N0) (upd m0 N0 t) (N0, 0) t (4 * (W - 1)) (bytes_of_word 4 0) (pts_local N0 m0 t)) as [C1 [C2 _]];
    [rewrite length_bytes_of_word; lia|discriminate|]. cbn [fst snd] in C1, C2. fold m1 in C1, C2.
  change (bytes_of_word 4 0) with (zeros 4) in C1. set (t0 := firstn (4 * (W - 1)) t ++ zeros 4 ++ skipn (4 * (W - 1) + length (zeros 4)) t) in C1.
  assert (Lt0 : length t0 = 64). { unfold t0. rewrite !app_length, firstn_length, skipn_length, length_zeros. lia. }
  rewrite LU in C2.
  set (body := fun i t => (prod <- matrix_mul_row P s M i ;; setBit t i (parity32 prod))).
  assert (Hq1 : forall m, chg (S N0) (upd m0 N0 t) m [((N0, 0), 64)] -> pts (S N0) m q1 s /\ pts (S N0) m q2 M /\ pts (S N0) m q0 out).
  { intros m Hm. assert (D : forall q l, pts N0 m0 q l -> pts (S N0) m q l).
    { intros q l Hq. apply (pts_chg1 _ _ _ _ _ q l Hm); [apply pts_new, Hq|]. left. destruct Hq as [Hq _]. cbn. lia. }
    auto. }
  apply runs_seq. apply runs_for with (I := fun k z => pv z = pv0 /\ nx z = S N0 /\ ct z = S (ct y) /\
    exists tk, for_loop k 0 body t0 = Ok tk /\ length tk = 64 /\ pts (S N0) (mm z) (N0, 0) tk /\ chg (S N0) (upd m0 N0 t) (mm z) [((N0, 0), 64)]).
  - csimpl. repeat (split; [reflexivity|]). exists t0. repeat (split; [first [reflexivity|exact Lt0|exact C1]|]). exact C2.
  - csimpl. rewrite iters. intros k z Hk (Z1 & Z2 & Z3 & tk & Htk & Ltk & Ptk & Ck). rewrite Nat.mul_1_r. cbn [Nat.add].
    destruct (Hq1 _ Ck) as (G1 & G2 & _). destruct q1 as [b1 o1], q2 as [b2 o2]. cbn [snd] in A1, A2.
    apply runs_seq, runs_dset. csimpl. apply runs_seq.
    apply (row_loop1 s M b1 o1 b2 o2 k); csimpl; rewrite ?Z1, ?Z2; csimpl; auto.
    intros z1 v1 (Y1 & Y2 & Y3 & Y4 & Y5) Hv1 Hd1. csimpl_in Y1. csimpl_in Y2. csimpl_in Y3. csimpl_in Y4. csimpl_in Y5.
    apply runs_seq.
    apply (fun a b c d e f g h i j => row_loop2 s M b1 o1 b2 o2 k z1 a b c d e f g h i j v1); csimpl; rewrite ?Y1, ?Z1, ?Y2, ?Y3, ?Z2; csimpl; auto.
    intros z2 v2 (X1 & X2 & X3 & X4 & X5) Hv2 Hd2. apply runs_seq, runs_parity32. csimpl.
    apply (runs_setBit U _ _ _ _ (N0, 0) tk (parity32 v2)).
    { csimpl. rewrite X1, Y1, Z1. reflexivity. }
    { csimpl. rewrite X2, X3, Y2, Y3, Z2. exact Ptk. }
    { csimpl. rewrite X5, Y5. apply lt_div8. lia. }
    { csimpl. rewrite Hd2. destruct (parity32 v2); reflexivity. }
    csimpl. rewrite X5, Y5, X3, Y3, Z2, X2, Y2, Ltk. intros m' Hm' Hc'.
    split; [congruence|]. split; [congruence|]. split; [congruence|]. exists (set_bit tk k (parity32 v2)). split; [|split; [|split]].
    + rewrite for_loop_snoc, Htk, bind_Ok. cbn [Nat.add]. unfold body, matrix_mul_row. fold n W. change WORD_SIZE_BITS with 32 in *.
      rewrite Hv1, bind_Ok, Hv2, bind_Ok. apply setBit_ok. apply lt_div8. lia.
    + rewrite length_set_bit. exact Ltk.
    + exact Hm'.
    + eapply chg_trans; [exact Ck|exact Hc'| |]; auto.
  - csimpl. rewrite iters. intros z (Z1 & Z2 & Z3 & tk & Htk & Ltk & Ptk & Ck). destruct (Hq1 _ Ck) as (G1 & G2 & G0).
    eapply (runs_memcpy U _ _ _ q0 (N0, 0)); csimpl; rewrite ?Z1; [reflexivity|reflexivity| | | |].
    { apply (pts_valid (S N0) _ _ out); auto; lia. }
    { apply (pts_valid (S N0) _ _ tk); auto; lia. }
    { unfold separate. cbn [fst snd]. destruct H0 as [H0 _]. replace (fst q0 =? N0) with false by lia. reflexivity. }
    csimpl. rewrite (rdmem_pts (S N0) (mm z) (N0, 0) tk (W * 4) Ptk) by lia. set (src := firstn (W * 4) tk).
    assert (Lsrc : length src = 4 * W) by (unfold src; rewrite firstn_length; lia).
    destruct (wrmem_pts (S N0) (mm z) q0 src) as [D1 D2].
    { apply G0. } { pose proof (pts_bound _ _ _ _ G0 ltac:(intros ->; cbn in Lo; lia)). lia. }
    rewrite Lsrc in D2. rewrite Z3. apply (HQ _ _ src).
    + apply (temp_env_ok E (ct y) HE LU s M out src Bs BM Bo Ls LM ltac:(lia)). unfold matrix_mul. fold n W. cbn [uninit].
      change LOWMC_MAX_STATE_BYTES with 64. fold t. rewrite blit_ok by (rewrite length_zeros; lia). rewrite bind_Ok.
      change (blit_list t (4 * (W - 1)) (zeros 4)) with t0. change (fun i temp => prod <- matrix_mul_row P s M i;; setBit temp i (parity32 prod)) with body.
      rewrite Htk, bind_Ok. rewrite slice0_ok by lia. rewrite bind_Ok. apply blit0_all. fold src. lia.
    + apply (pts_drop N0 _ q0 src D1). apply H0.
    + apply (chg_local N0 m0 _ t [((N0, 0), 64); (q0, 4 * W)]).
      * eapply chg_trans; [exact Ck|exact D2| |]; intros x [<-|[]]; cbn; auto.
      * intros x [<-|[<-|[]]]; cbn [fst]; [lia|cbn; auto].
Qed.

Lemma b2n_sbox a b c :
  N.modulo (N.lxor (b2n a) (N.land (b2n b) (b2n c))) 256 = b2n (xorb a (b && c)) /\
  N.modulo (N.lxor (N.lxor (b2n a) (b2n b)) (N.land (b2n a) (b2n c))) 256 = b2n (xorb (xorb a b) (a && c)) /\
  N.modulo (N.lxor (N.lxor (N.lxor (b2n a) (b2n b)) (b2n c)) (N.land (b2n a) (b2n b))) 256 = b2n (xorb (xorb (xorb a b) c) (a && b)).
Proof. destruct a, b, c; repeat split; reflexivity. Qed.

Lemma iters3 a : (a * 3 - 0 + (3 - 1)) / 3 = a.
Proof. rewrite Nat.sub_0_r. change (3 - 1) with 2. rewrite Nat.div_add_l by lia. change (2 / 3) with 0. lia. Qed.

Lemma runs_substitution p y q s (Q : state -> Prop) :
  peval (iv y) (pv y) p = Some q -> pts (nx y) (mm y) q s -> 3 * numSboxes P <= 8 * length s ->
  (forall m' r, substitution P s = Ok r -> pts (nx y) m' q r -> chg (nx y) (mm y) m' [(q, length s)] -> Q (set_mm y m')) ->
  runs U (c_substitution P p) y Q.
Proof.
  intros E0 H0 Ls HQ. unfold c_substitution. eapply runs_call; [cbn [pargevals pargeval pevals]; rewrite E0; reflexivity|].
  cbn [map]. unfold substitution_body. unfold substitution in HQ. set (body := fun k (s : bytes) => _) in HQ.
  set (N0 := nx y) in *. set (m0 := mm y) in *.
  apply runs_for with (I := fun k z => pv z = args [] [[q]] /\ nx z = N0 /\ ct z = ct y /\
    exists l, for_loop k 0 body s = Ok l /\ length l = length s /\ pts N0 (mm z) q l /\ chg N0 m0 (mm z) [(q, length s)]).
  - csimpl. repeat (split; [reflexivity|]). exists s. split; [reflexivity|]. split; [reflexivity|]. split; [exact H0|]. apply chg_refl.
  - csimpl. rewrite iters3. intros k z Hk (Z1 & Z2 & Z3 & l & Hl & Ll & Pl & Cl). cbn [Nat.add].
    assert (J2 : (k * 3 + 2) / 8 < length s) by (apply lt_div8; lia). assert (J1 : (k * 3 + 1) / 8 < length s) by (apply lt_div8; lia).
    assert (J0 : k * 3 / 8 < length s) by (apply lt_div8; lia).
    set (a := bit l (k * 3 + 2)). set (b := bit l (k * 3 + 1)). set (c := bit l (k * 3)).
    destruct (b2n_sbox a b c) as (V1 & V2 & V3).
    do 3 (apply runs_seq; eapply (runs_getBit U _ _ _ _ q l);
      [csimpl; rewrite Z1; reflexivity|csimpl; rewrite Z2; exact Pl|csimpl; rewrite ?Lb, ?La, ?Ll; assumption|]; csimpl).
    fold a b c. apply runs_seq. apply (runs_setBit U _ _ _ _ q l (xorb a (b && c)));
      [csimpl; rewrite Z1; reflexivity|csimpl; rewrite Z2; exact Pl|csimpl; rewrite ?Lb, ?La, ?Ll; assumption|csimpl; exact V1|]. csimpl.
    rewrite Z2. intros ma Pa Ca. set (la := set_bit l (k * 3 + 2) (xorb a (b && c))) in *.
    assert (La : length la = length s) by (unfold la; rewrite length_set_bit; exact Ll).
    apply runs_seq. apply (runs_setBit U _ _ _ _ q la (xorb (xorb a b) (a && c)));
      [csimpl; rewrite Z1; reflexivity|csimpl; rewrite Z2; exact Pa|csimpl; rewrite ?Lb, ?La, ?Ll; assumption|csimpl; exact V2|]. csimpl.
    rewrite Z2. intros mb Pb Cb. set (lb := set_bit la (k * 3 + 1) (xorb (xorb a b) (a && c))) in *.
    assert (Lb : length lb = length s) by (unfold lb; rewrite length_set_bit; exact La).
    apply (runs_setBit U _ _ _ _ q lb (xorb (xorb (xorb a b) c) (a && b)));
      [csimpl; rewrite Z1; reflexivity|csimpl; rewrite Z2; exact Pb|csimpl; rewrite ?Lb, ?La, ?Ll; assumption|csimpl; exact V3|]. csimpl.
    rewrite Z2. intros mc Pc Cc. split; [exact Z1|]. split; [reflexivity|]. split; [exact Z3|]. eexists. split; [|split; [|split; [exact Pc|]]].
    + rewrite for_loop_snoc, Hl, bind_Ok. cbn [Nat.add]. unfold body. rewrite (Nat.mul_comm 3 k). cbv zeta.
      rewrite !getBit_ok by (rewrite Ll; assumption). rewrite !bind_Ok. fold a b c.
      rewrite setBit_ok by (rewrite Ll; assumption). rewrite bind_Ok. fold la.
      rewrite setBit_ok by (rewrite La; assumption). rewrite bind_Ok. fold lb.
      rewrite setBit_ok by (rewrite Lb; assumption). reflexivity.
    + rewrite length_set_bit. exact Lb.
    + rewrite Ll in Ca. rewrite La in Cb. rewrite Lb in Cc.
      eapply chg_trans; [exact Cl| |auto|intros x Hx; exact Hx].
      eapply chg_trans; [exact Ca| |auto|intros x Hx; exact Hx]. eapply chg_trans; [exact Cb|exact Cc|auto|auto].
  - csimpl. rewrite iters3. intros z (Z1 & Z2 & Z3 & l & Hl & Ll & Pl & Cl). rewrite Z2, Z3. apply (HQ (mm z) l Hl Pl Cl).
Qed.

Lemma runs_LowMCEnc E pp po pk aK aL aC y qp qo qk pt out key (Q : state -> Prop) :
  peval (iv y) (pv y) pp = Some qp -> peval (iv y) (pv y) po = Some qo -> peval (iv y) (pv y) pk = Some qk ->
  env_bytes_ok E -> constants_ok E P -> bytes_ok pt -> bytes_ok key ->
  length pt = 4 * W -> length out = 4 * W -> n <= 8 * length key ->
  pts (nx y) (mm y) qp pt -> pts (nx y) (mm y) qo out -> pts (nx y) (mm y) qk key ->
  eqdisj qo qp (4 * W) -> disj qo (4 * W) qk (length key) -> snd qo mod 4 = 0 -> snd qk mod 4 = 0 ->
  table y aK (numRounds P + 1) (KMatrix E P) qo (4 * W) ->
  table y aL (numRounds P) (LMatrix E P) qo (4 * W) ->
  table y aC (numRounds P) (RConstant E P) qo (4 * W) ->
  (forall m' c' o, length o = 4 * W -> bytes_ok o ->
     (forall i, bit o i = if i <? n then lowmc_enc (lowmc_of E P) (bit key) (bit pt) i else false) ->
     pts (nx y) m' qo o -> chg (nx y) (mm y) m' [(qo, 4 * W)] -> Q (set_mc y m' c')) ->
  runs U (c_LowMCEnc P pp po pk aK aL aC) y Q.
Proof.
  intros Ep Eo Ek HE HC Bp Bk Lp Lo Lk Pp Po Pk Dp Dk Ao Ak TK TL TC HQ. destruct HC as (HK & HL & HC).
  destruct HP as [Hn0 HsB W1 W2 W3 W0 Hr0 Hm3 Hm0 HaB]. fold n in Hn0, W1, W2, Hm3. fold W in W1, W2, W3, W0.
  destruct (HU (ct y) 64) as [LU BU].
  unfold c_LowMCEnc. eapply runs_call; [cbn [pargevals pargeval pevals]; rewrite Ep, Eo, Ek; reflexivity|].
  cbn [map]. unfold LowMCEnc_body. fold n W. apply runs_loc. cbn [iv dv pv mm nx ct ieval].
  set (N0 := nx y) in *. set (m0 := mm y) in *. set (t := U (ct y) 64) in *.
  set (pv0 := upd (args [] [[qp]; [qo]; [qk]; pv y aK; pv y aL; pv y aC]) 6 [(N0, 0)]).
  set (m1 := upd m0 N0 t). set (R := [((N0, 0), 4 * W); (qo, 4 * W)]).
  assert (R1 : forall x, In x [(((N0, 0) : ptr), 4 * W)] -> In x R) by (unfold R; cbn; tauto).
  assert (R2 : forall x, In x [(qo, 4 * W)] -> In x R) by (unfold R; cbn; tauto).
  assert (Fo : fst qo < N0) by apply Po.
  assert (keep : forall m q l, chg (S N0) m1 m R -> pts N0 m0 q l -> disj qo (4 * W) q (length l) -> pts (S N0) m q l).
  { intros m q l Hm Hq D. apply (pts_chg _ _ _ _ q l Hm); [apply pts_new, Hq|]. intros p k [Eq|[Eq|[]]]; injection Eq as <- <-; [|exact D].
    left. destruct Hq as [Hq _]. cbn. lia. }
  assert (rk_o : disj (N0, 0) (4 * W) qo (4 * W)) by (left; cbn; lia).
  assert (o_rk : disj qo (4 * W) (N0, 0) (4 * W)) by (left; cbn; lia).
  apply runs_seq. apply runs_mono with (Q := fun z => exists c, z = mkState (args 0 []) (args 0%N []) pv0 (mm z) (S N0) c /\
    pts (S N0) (mm z) qo pt /\ chg (S N0) m1 (mm z) R /\ pts (S N0) (mm z) (N0, 0) (firstn (4 * W) t)).
  { assert (P1 : pts (S N0) m1 qo out) by (apply pts_new, Po). assert (P2 : pts (S N0) m1 qp pt) by (apply pts_new, Pp).
    assert (P3 : pts (S N0) m1 (N0, 0) (firstn (4 * W) t)) by (apply pts_firstn, pts_local).
    destruct qp as [bp op], qo as [bo oo]. eapply runs_if; [csimpl; reflexivity|].
    destruct ((bp =? bo) && (op =? oo)) eqn:Heq.
    - apply andb_true_iff in Heq. destruct Heq as [Heq1 Heq2]. apply Nat.eqb_eq in Heq1, Heq2. subst bp op.
      apply runs_skip. eexists. split; [reflexivity|]. csimpl. split; [exact P2|]. split; [apply chg_refl|exact P3].
    - assert (D : disj (bo, oo) (4 * W) (bp, op) (4 * W)).
      { destruct Dp as [Dp|Dp]; [|exact Dp]. injection Dp as -> ->. rewrite !Nat.eqb_refl in Heq. discriminate. }
      eapply (runs_memcpy U _ _ _ (bo, oo) (bp, op)); csimpl; [reflexivity|reflexivity| | | |].
      + apply (pts_valid (S N0) _ _ out); auto; lia.
      + apply (pts_valid (S N0) _ _ pt); auto; lia.
      + unfold separate, disj in *. cbn [fst snd] in *. lia.
      + rewrite (rdmem_pts (S N0) m1 (bp, op) pt (W * 4) P2) by lia. rewrite firstn_all2 by lia.
        destruct (wrmem_pts (S N0) m1 (bo, oo) pt) as [D1 D2]; [cbn; cbn in Fo; lia| |].
        { pose proof (pts_bound _ _ _ _ P1 ltac:(intros ->; cbn in Lo; lia)). lia. }
        rewrite Lp in D2. eexists. split; [reflexivity|]. csimpl. split; [exact D1|]. split; [eapply chg_incl; eauto|].
        apply (pts_chg1 _ _ _ _ _ _ _ D2 P3). rewrite firstn_length, LU, Nat.min_l by lia. exact o_rk. }
  intros z (c & Ez & Po1 & C1 & Prk1). rewrite Ez. set (m2 := mm z) in *. clearbody m2. clear z Ez.
  assert (Lt : length (firstn (4 * W) t) = 4 * W) by (rewrite firstn_length; lia).
  assert (Bt : bytes_ok (firstn (4 * W) t)) by (apply Forall_firstn, BU).
  apply runs_seq. destruct (TK 0 ltac:(lia)) as (k0 & K1 & K2 & K3 & K4). destruct (HK 0 ltac:(lia)) as [K5 K6].
  apply (runs_matrix_mul E _ _ _ _ (N0, 0) qk k0 (firstn (4 * W) t) key (KMatrix E P 0)); csimpl; auto.
  intros m3 c3 rk Hrk Prk C3. csimpl_in Prk. csimpl_in C3.
  pose proof (matrix_mul_spec E P HP (firstn (4 * W) t) key (KMatrix E P 0) HE Bk K6 Lk K5 ltac:(fold W; lia)) as Srk. rewrite Hrk in Srk.
  cbn [ok] in Srk. destruct Srk as (Lrk & Brk & Srk). specialize (Brk Bt). rewrite Lt in Lrk.
  assert (C13 : chg (S N0) m1 m3 R) by (eapply chg_trans; eauto).
  apply runs_seq. apply (runs_xor_array U _ _ _ _ _ qo qo (N0, 0) pt pt rk); csimpl; auto.
  { apply (pts_chg1 _ _ _ _ _ _ _ C3 Po1). rewrite Lp. exact rk_o. } { apply (pts_chg1 _ _ _ _ _ _ _ C3 Po1). rewrite Lp. exact rk_o. }
  { left. reflexivity. } { right. exact o_rk. }
  unfold set_mc. csimpl. intros m4 Po4 C4. assert (C14 : chg (S N0) m1 m4 R) by (eapply chg_trans; eauto).
  assert (Prk4 : pts (S N0) m4 (N0, 0) rk) by (apply (pts_chg1 _ _ _ _ _ _ _ C4 Prk); rewrite Lrk; exact o_rk).
  apply runs_for with (I := fun k z => pv z = pv0 /\ nx z = S N0 /\ chg (S N0) m1 (mm z) R /\ exists o rk,
    length o = 4 * W /\ bytes_ok o /\ length rk = 4 * W /\ bytes_ok rk /\ pts (S N0) (mm z) qo o /\ pts (S N0) (mm z) (N0, 0) rk /\
    (forall i, i < n -> bit o i = lowmc_state (lowmc_of E P) (bit key) (bit pt) k i) /\
    (0 < k -> forall i, n <= i -> bit o i = false)).
  - csimpl. split; [reflexivity|]. split; [reflexivity|]. split; [exact C14|]. exists (lxor_list pt rk), rk.
    split; [rewrite length_lxor_list; lia|]. split; [apply bytes_ok_lxor; auto|]. do 4 (split; [assumption|]). split; [|lia].
    intros i Hi. rewrite bit_lxor_list by lia. rewrite Srk. fold n. rewrite (proj2 (Nat.ltb_lt i n) Hi). reflexivity.
  - csimpl. replace ((numRounds P + 1 - 1 + (1 - 1)) / 1) with (numRounds P) by (rewrite Nat.div_1_r; lia).
    intros k z Hk (Z1 & Z2 & Zc & o & rk' & Lo' & Bo' & Lrk' & Brk' & Po' & Prk' & H1 & H2). rewrite Nat.mul_1_r. unfold set_iv. rewrite Z1, Z2.
    destruct (TK (1 + k) ltac:(lia)) as (kk & KK1 & KK2 & KK3 & KK4). destruct (HK (1 + k) ltac:(lia)) as [KK5 KK6].
    destruct (TL k Hk) as (kl & KL1 & KL2 & KL3 & KL4). destruct (HL k Hk) as [KL5 KL6].
    destruct (TC k Hk) as (kc & KC1 & KC2 & KC3 & KC4). destruct (HC k Hk) as (KC5 & KC6 & KC7).
    apply runs_seq. apply (runs_matrix_mul E _ _ _ _ (N0, 0) qk kk rk' key (KMatrix E P (1 + k))); csimpl; rewrite ?Z1, ?Z2; auto.
    intros ma ca rk2 Hrk2 Prk2 Ca. unfold set_mc. csimpl.
    pose proof (matrix_mul_spec E P HP rk' key _ HE Bk KK6 Lk KK5 ltac:(fold W; lia)) as Srk2. rewrite Hrk2 in Srk2.
    cbn [ok] in Srk2. destruct Srk2 as (Lrk2 & Brk2 & Srk2). specialize (Brk2 Brk'). rewrite Lrk' in Lrk2.
    assert (Ca' : chg (S N0) m1 ma R) by (eapply chg_trans; eauto).
    assert (Poa : pts (S N0) ma qo o) by (apply (pts_chg1 _ _ _ _ _ _ _ Ca Po'); rewrite Lo'; exact rk_o).
    apply runs_seq. apply (runs_substitution _ _ qo o); csimpl; auto; [lia|].
    intros mb o2 Ho2 Pob Cb. rewrite Lo' in Cb.
    pose proof (substitution_spec_gen P o ltac:(lia)) as So2. rewrite Ho2 in So2. cbn [ok] in So2. destruct So2 as (Lo2 & Bo2 & So2). specialize (Bo2 Bo').
    assert (Cb' : chg (S N0) m1 mb R) by (eapply chg_trans; eauto).
    assert (Prkb : pts (S N0) mb (N0, 0) rk2) by (apply (pts_chg1 _ _ _ _ _ _ _ Cb Prk2); rewrite Lrk2; exact o_rk).
    apply runs_seq. apply (runs_matrix_mul E _ _ _ _ qo qo kl o2 o2 (LMatrix E P k)); csimpl; auto; [replace (1 + k - 1) with k by lia; exact KL1|lia|lia|].
    intros mc cc o3 Ho3 Poc Cc. unfold set_mc. csimpl.
    pose proof (matrix_mul_spec E P HP o2 o2 _ HE Bo2 KL6 ltac:(fold n; lia) KL5 ltac:(fold W; lia)) as So3. rewrite Ho3 in So3.
    cbn [ok] in So3. destruct So3 as (Lo3 & Bo3 & So3). specialize (Bo3 Bo2).
    assert (Cc' : chg (S N0) m1 mc R) by (eapply chg_trans; eauto).
    assert (Prkc : pts (S N0) mc (N0, 0) rk2) by (apply (pts_chg1 _ _ _ _ _ _ _ Cc Prkb); rewrite Lrk2; exact o_rk).
    apply runs_seq. apply (runs_xor_array U _ _ _ _ _ qo qo kc o3 o3 (RConstant E P k)); csimpl; auto; try lia.
    { replace (1 + k - 1) with k by lia. exact KC1. } { left; reflexivity. } { right. rewrite KC5 in KC4. exact KC4. }
    intros md Pod Cd. assert (Cd' : chg (S N0) m1 md R) by (eapply chg_trans; eauto).
    assert (Prkd : pts (S N0) md (N0, 0) rk2) by (apply (pts_chg1 _ _ _ _ _ _ _ Cd Prkc); rewrite Lrk2; exact o_rk).
    assert (Ld : length (lxor_list o3 (RConstant E P k)) = 4 * W) by (rewrite length_lxor_list; fold W in KC5; lia).
    apply (runs_xor_array U _ _ _ _ _ qo qo (N0, 0) (lxor_list o3 (RConstant E P k)) (lxor_list o3 (RConstant E P k)) rk2); csimpl; auto.
    { apply bytes_ok_lxor; auto. } { left; reflexivity. } { right; exact o_rk. }
    intros me Poe Ce. split; [reflexivity|]. split; [reflexivity|]. split; [eapply chg_trans; eauto|].
    exists (lxor_list (lxor_list o3 (RConstant E P k)) rk2), rk2.
    split; [rewrite length_lxor_list; lia|]. split; [apply bytes_ok_lxor; auto; apply bytes_ok_lxor; auto|]. do 3 (split; [assumption|]).
    split; [apply (pts_chg1 _ _ _ _ _ _ _ Ce Prkd); rewrite Lrk2; exact o_rk|]. fold W in KC5. fold n in KC7.
    assert (Bits : forall i, bit (lxor_list (lxor_list o3 (RConstant E P k)) rk2) i = xorb (xorb (bit o3 i) (bit (RConstant E P k) i)) (bit rk2 i)).
    { intros i. rewrite !bit_lxor_list; lia || reflexivity. }
    split.
    + intros i Hi. rewrite Bits, So3, Srk2. fold n. rewrite (proj2 (Nat.ltb_lt i n) Hi). cbn [lowmc_state]. unfold vxor. f_equal. f_equal.
      fold n W. apply matvec_ext. intros j Hj. rewrite So2. apply (sbox_layer_ext n); auto.
    + intros _ i Hi. rewrite Bits, So3, Srk2, KC7 by exact Hi. fold n W. rewrite (proj2 (Nat.ltb_ge i n) Hi).
      destruct (Nat.ltb_spec i (32 * W)); [reflexivity|]. assert (8 * (4 * W) <= i) by lia. rewrite !bit_overflow by (apply Nat.div_le_lower_bound; lia). reflexivity.
  - csimpl. replace ((numRounds P + 1 - 1 + (1 - 1)) / 1) with (numRounds P) by (rewrite Nat.div_1_r; lia).
    intros z (Z1 & Z2 & Zc & o & rk' & Lo' & Bo' & Lrk' & Brk' & Po' & Prk' & H1 & H2). apply (HQ _ _ o Lo' Bo').
    + intros i. destruct (Nat.ltb_spec i n) as [Hi|Hi]; [apply H1, Hi|apply H2; [lia|exact Hi]].
    + apply (pts_drop N0 _ qo o Po' Fo).
    + apply (chg_local N0 m0 _ t R _ Zc). intros x [<-|[<-|[]]]; cbn [fst]; [lia|cbn; auto].
Qed.
End M.

(** ** The theorems *)
Lemma LowMC_code U E P st qo pt key : locals_ok U -> wfP P -> constants_ok E P -> LowMC_call E P st qo pt key ->
  exists st' t o, run U (c_LowMCEnc P (PV 0 (IC 0)) (PV 1 (IC 0)) (PV 2 (IC 0)) 3 4 5) st = Some (st', t) /\
    pts (nx st) (mm st') qo o /\ bytes_ok o /\ length o = 4 * stateSizeWords P /\
    (forall i, bit o i = if i <? stateSizeBits P then lowmc_enc (lowmc_of E P) (bit key) (bit pt) i else false) /\
    chg (nx st) (mm st) (mm st') [(qo, 4 * stateSizeWords P)] /\
    iv st' = iv st /\ dv st' = dv st /\ pv st' = pv st /\ nx st' = nx st.
Proof.
  intros HU HP HC [[Bp Lp] [Bk Lk] (qp & qk & out & V0 & V1 & V2 & Pp & Po & Lo & Pk & Ao & Ak & Dp & Dk) TK TL TC].
  set (E' := mkEnv (fun _ _ k => zeros k) (fun _ _ k => zeros k) (LMatrix E) (LMatrixInv E) (KMatrix E) (KMatrixInv E) (RConstant E)).
  assert (HE : env_bytes_ok E') by (split; intros; cbn; split; [apply length_zeros|apply bytes_ok_zeros|apply length_zeros|apply bytes_ok_zeros]).
  pose proof (runs_LowMCEnc U P HP HU E' (PV 0 (IC 0)) (PV 1 (IC 0)) (PV 2 (IC 0)) 3 4 5 st qp qo qk pt out key
    (fun st' => exists o, pts (nx st) (mm st') qo o /\ bytes_ok o /\ length o = 4 * stateSizeWords P /\
    (forall i, bit o i = if i <? stateSizeBits P then lowmc_enc (lowmc_of E P) (bit key) (bit pt) i else false) /\
    chg (nx st) (mm st) (mm st') [(qo, 4 * stateSizeWords P)] /\
    iv st' = iv st /\ dv st' = dv st /\ pv st' = pv st /\ nx st' = nx st)) as H.
  cbn [peval ieval] in H. rewrite V0, V1, V2 in H. specialize (H eq_refl eq_refl eq_refl HE HC Bp Bk Lp Lo).
  pose proof (wf_W2 P HP) as W2. specialize (H ltac:(lia) Pp Po Pk Dp Dk Ao Ak TK TL TC). unfold runs in H.
  destruct (run U _ st) as [[st' t]|].
  - destruct H as [o H]; [|exists st', t, o; split; [reflexivity|exact H]].
    intros m' c' o L1 B1 Hb Hp Hc. exists o. unfold set_mc. csimpl. repeat (split; [first [assumption|reflexivity]|]). reflexivity.
  - exfalso. apply H. intros m' c' o L1 B1 Hb Hp Hc. exists o. unfold set_mc. csimpl. repeat (split; [first [assumption|reflexivity]|]). reflexivity.
Qed.

Lemma observed_same U U' s x y : locals_ok U -> locals_ok U' -> shows_nothing s = true -> same_public x y ->
  observed (run U s x) = observed (run U' s y).
Proof.
  intros HU HU' Hs H. assert (L : forall k j, length (U k j) = length (U' k j)).
  { intros k j. rewrite (proj1 (HU k j)), (proj1 (HU' k j)). reflexivity. }
  pose proof (run_same U U' L s Hs x y H) as R. unfold same_run in R.
  destruct (run U s x) as [[a t]|], (run U' s y) as [[b t']|]; cbn; try tauto. destruct R as [-> _]. reflexivity.
Qed.

Lemma LowMC_constant_time U U' P x y : locals_ok U -> locals_ok U' -> same_public x y ->
  let c := c_LowMCEnc P (PV 0 (IC 0)) (PV 1 (IC 0)) (PV 2 (IC 0)) 3 4 5 in
  observed (run U c x) = observed (run U' c y).
Proof. intros HU HU' H c. apply observed_same; auto. Qed.
