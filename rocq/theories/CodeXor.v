(** [xor_three] and its use for the third output share, on memory with pointers. *)

From Coq Require Import List NArith Arith Bool Lia ZifyBool ZifyNat ZifyN.
From Verif Require Import Base Params Env Spec LowMC MiniC CodeLowMC CodeZkb CodeSpec BaseFacts ParamFacts LowMCFacts
  MiniCFacts CodeRules CodeLowMCProofs.
Import ListNotations.
Local Open Scope c_scope.

Section X.
Variable U : nat -> nat -> bytes.
Variables (n : nat) (m0 : memory) (q0 q1 q2 q3 : ptr) (a0 a1 a2 a3 : bytes) (len : nat).
Hypothesis (L0 : length a0 = len) (L1 : length a1 = len) (L2 : length a2 = len) (L3 : length a3 = len).
Hypothesis (B1 : bytes_ok a1) (B2 : bytes_ok a2) (B3 : bytes_ok a3).
Hypothesis (H0 : pts n m0 q0 a0) (H1 : pts n m0 q1 a1) (H2 : pts n m0 q2 a2) (H3 : pts n m0 q3 a3).
Hypothesis (D1 : disj q0 len q1 len) (D2 : disj q0 len q2 len) (D3 : disj q0 len q3 len).
Let x := lxor_list (lxor_list a1 a2) a3.
Let ps := args [] [[q0]; [q1]; [q2]; [q3]].

Lemma xor3_len : length x = len.
Proof. unfold x. rewrite !length_lxor_list; rewrite ?length_lxor_list; congruence. Qed.

Lemma lxor_slice (a b : bytes) o w : length a = length b -> firstn w (skipn o (lxor_list a b)) = lxor_list (firstn w (skipn o a)) (firstn w (skipn o b)).
Proof.
  intros H. apply (list_ext 0%N).
  - rewrite (length_lxor_list (firstn w (skipn o a))) by (rewrite !firstn_length, !skipn_length; lia).
    rewrite !firstn_length, !skipn_length, length_lxor_list by exact H. reflexivity.
  - intros i Hi. rewrite firstn_length, skipn_length, length_lxor_list in Hi by exact H.
    rewrite nth_firstn, nth_skipn by lia. rewrite !nth_lxor_list by (rewrite ?firstn_length, ?skipn_length; lia).
    rewrite !nth_firstn, !nth_skipn by lia. reflexivity.
Qed.

Definition inv (c o : nat) (y : state) : Prop :=
  pv y = ps /\ iv y 0 = len /\ iv y 1 = len / 4 /\ nx y = n /\ ct y = c /\ pts n (mm y) q0 (firstn o x ++ skipn o a0) /\ chg n m0 (mm y) [(q0, len)].

Lemma xor3_step w c y (Q : state -> Prop) : let o := w * iv y 2 in
  inv c o y -> 0 < w -> o + w <= len -> (snd q0 + o) mod w = 0 -> (snd q1 + o) mod w = 0 -> (snd q2 + o) mod w = 0 -> (snd q3 + o) mod w = 0 ->
  (forall z, inv c (o + w) z -> Q z) ->
  runs U (Ld w 0 (elem w (P0 1) (IV 2)) ;; Ld w 1 (elem w (P0 2) (IV 2)) ;; Ld w 2 (elem w (P0 3) (IV 2)) ;;
          St w (elem w (P0 0) (IV 2)) (dxor (dxor (DV 0) (DV 1)) (DV 2))) y Q.
Proof.
  cbv zeta. set (o := w * iv y 2). intros (Hpv & Hi0 & Hi1 & Hnx & Hct & Hm & Hc) Hw Ho A0 A1 A2 A3 HQ. pose proof xor3_len as Lx.
  assert (Hrd : forall q a, pts n m0 q a -> length a = len -> disj q0 len q len -> pts n (mm y) (fst q, snd q + o) (firstn w (skipn o a))).
  { intros q a Hq La D. apply (pts_sub n (mm y) q a o w); [|lia]. apply (pts_chg1 n m0 (mm y) _ _ q a Hc Hq). rewrite La. exact D. }
  assert (LW : forall a : bytes, length a = len -> length (firstn w (skipn o a)) = w) by (intros a La; rewrite firstn_length, skipn_length; lia).
  assert (Hld : forall q a, pts n m0 q a -> length a = len -> disj q0 len q len -> (snd q + o) mod w = 0 ->
    valid (mm y) w w (fst q, snd q + o) = true /\ word_of (rdmem (mm y) (fst q, snd q + o) w) = word_of (firstn w (skipn o a))).
  { intros q a Hq La D A. pose proof (Hrd q a Hq La D) as R. split.
    - apply (pts_valid n _ _ _ w w R Hw); [rewrite (LW a La); lia|exact A].
    - rewrite (rdmem_pts n _ _ _ w R) by (rewrite (LW a La); lia). rewrite (firstn_all2 (n := w)) by (rewrite (LW a La); lia). reflexivity. }
  destruct (Hld q1 a1 H1 L1 D1 A1) as [V1 W1]. destruct (Hld q2 a2 H2 L2 D2 A2) as [V2 W2]. destruct (Hld q3 a3 H3 L3 D3 A3) as [V3 W3]. clear Hrd Hld.
  assert (Hpe : forall iv' k q, iv' 2 = iv y 2 -> ps k = [q] -> peval iv' ps (elem w (P0 k) (IV 2)) = Some (fst q, snd q + o)).
  { intros iv' k q Ei Ek. unfold elem, P0. cbn [peval ieval]. rewrite Ek. cbn [nth_error]. rewrite Ei. destruct q. reflexivity. }
  destruct y as [yi yd yp ym yn yc]. cbn [iv dv pv mm nx ct] in *. subst yp yn yc.
  apply runs_seq. eapply (runs_ld U w 0); [apply Hpe; reflexivity|exact V1|]. unfold set_dv. cbn [iv dv pv mm nx ct]. rewrite W1.
  apply runs_seq. eapply (runs_ld U w 1); [apply Hpe; reflexivity|exact V2|]. unfold set_dv. cbn [iv dv pv mm nx ct]. rewrite W2.
  apply runs_seq. eapply (runs_ld U w 2); [apply Hpe; reflexivity|exact V3|]. unfold set_dv. cbn [iv dv pv mm nx ct]. rewrite W3.
  assert (Hl : length (firstn o x ++ skipn o a0) = len) by (rewrite app_length, firstn_length, skipn_length; lia).
  eapply (runs_st U w); [apply Hpe; reflexivity| |].
  { cbn [set_dv iv dv pv mm nx ct]. assert (Hm' : pts n ym (fst q0, snd q0) (firstn o x ++ skipn o a0)) by (rewrite <- surjective_pairing; exact Hm). apply (valid_part n _ (fst q0) (snd q0) _ o w w Hm'); lia. }
  cbn [set_dv set_mm iv dv pv mm nx ct]. csimpl.
  set (d := bytes_of_word w _).
  assert (Hd : d = firstn w (skipn o x)).
  { unfold d, x. rewrite lxor_slice by (rewrite length_lxor_list; congruence). rewrite lxor_slice by congruence.
    rewrite <- !word_of_lxor; try (apply bytes_ok_slice; assumption); try (apply bytes_ok_lxor; apply bytes_ok_slice; assumption);
      try (rewrite ?length_lxor_list; rewrite ?LW by assumption; reflexivity).
    rewrite <- (bytes_of_word_of (lxor_list _ _)) at 2.
    - rewrite length_lxor_list; rewrite ?length_lxor_list; rewrite ?LW by assumption; reflexivity.
    - apply bytes_ok_lxor; [apply bytes_ok_lxor|]; apply bytes_ok_slice; assumption. }
  assert (Ld : length d = w) by (rewrite Hd; apply LW, Lx).
  destruct (wrmem_part n ym q0 _ o d Hm) as [A [B _]]; [lia|intros He; rewrite He in Ld; cbn in Ld; lia|].
  apply HQ. unfold inv. cbn [iv dv pv mm nx ct]. repeat (split; [first [reflexivity|assumption]|]). split.
  - rewrite firstn_add, <- Hd, <- app_assoc. rewrite Ld in A.
    assert (Hf : length (firstn o x) = o) by (rewrite firstn_length; lia).
    rewrite firstn_app, Hf, Nat.sub_diag, firstn_O, app_nil_r, firstn_all2 in A by lia.
    replace (skipn (o + w) (firstn o x ++ skipn o a0)) with (skipn (o + w) a0) in A; [exact A|].
    rewrite skipn_app, Hf. rewrite (skipn_all2 (firstn o x)) by lia. replace (o + w - o) with w by lia. apply skipn_add.
  - eapply chg_trans; [exact Hc|exact B| |]; intros z Hz; [exact Hz|]. rewrite Hl in Hz. exact Hz.
Qed.

Lemma xor_three_loop da c (Q : state -> Prop) :
  aligned q0 -> aligned q1 -> aligned q2 -> aligned q3 ->
  (forall i d m', pts n m' q0 x -> chg n m0 m' [(q0, len)] -> Q (mkState i d ps m' n c)) ->
  runs U xor_three_body (mkState (args 0 [len]) da ps m0 n c) Q.
Proof.
  intros A0 A1 A2 A3 HQ. pose proof xor3_len as Lx. unfold xor_three_body. pose proof (Nat.div_mod len 4 ltac:(lia)) as Dm. pose proof (Nat.mod_upper_bound len 4 ltac:(lia)) as Um.
  set (k4 := len / 4) in *.
  assert (Mod1 : forall a b : nat, (a + b) mod 1 = 0) by (intros; apply Nat.mod_1_r).
  apply runs_seq, runs_iset. csimpl. fold k4.
  apply runs_seq. apply runs_for with (I := fun k y => inv c (4 * k) y).
  - split; [reflexivity|]. split; [reflexivity|]. split; [reflexivity|]. split; [reflexivity|]. split; [reflexivity|]. split; [exact H0|apply chg_refl].
  - csimpl. rewrite Nat.sub_0_r. replace ((k4 + (1 - 1)) / 1) with k4 by (rewrite Nat.div_1_r; lia). intros k y Hk Hy. rewrite Nat.mul_1_r. cbn [Nat.add].
    apply (xor3_step 4 c); cbn [set_iv iv]; change (upd (iv y) 2 k 2) with k; try (apply mod4_add; assumption); try lia.
    + destruct Hy as (E1 & E2 & E3 & E4). split; [exact E1|]. split; [exact E2|]. split; [exact E3|exact E4].
    + intros z Hz. replace (4 * S k) with (4 * k + 4) by lia. exact Hz.
  - csimpl. rewrite Nat.sub_0_r. replace ((k4 + (1 - 1)) / 1) with k4 by (rewrite Nat.div_1_r; lia). intros y Hy.
    apply runs_for with (I := fun k z => inv c (4 * k4 + k) z).
    + rewrite Nat.add_0_r. exact Hy.
    + csimpl. pose proof Hy as (_ & -> & E1 & _). fold k4 in E1. rewrite E1. replace ((len - k4 * 4 + (1 - 1)) / 1) with (len - k4 * 4) by (rewrite Nat.div_1_r; lia).
      intros k z Hk Hz. rewrite Nat.mul_1_r. apply (xor3_step 1 c); cbn [set_iv iv]; change (upd (iv z) 2 (k4 * 4 + k) 2) with (k4 * 4 + k); try apply Mod1; try lia.
      * destruct Hz as (F1 & F2 & F3 & F4). replace (1 * (k4 * 4 + k)) with (4 * k4 + k) by lia. split; [exact F1|]. split; [exact F2|]. split; [exact F3|exact F4].
      * intros z' Hz'. replace (4 * k4 + S k) with (1 * (k4 * 4 + k) + 1) by lia. exact Hz'.
    + csimpl. pose proof Hy as (_ & -> & E1 & _). fold k4 in E1. rewrite E1. replace ((len - k4 * 4 + (1 - 1)) / 1) with (len - k4 * 4) by (rewrite Nat.div_1_r; lia).
      intros [i d p m' n' c'] (F1 & F2 & F3 & F4 & F5 & F6 & F7). cbn [iv dv pv mm nx ct] in *. subst p n' c'. apply HQ; [|exact F7].
      rewrite firstn_all2, skipn_all2, app_nil_r in F6 by lia. exact F6.
Qed.
End X.

Lemma runs_xor_three U po p1 p2 p3 e st q0 q1 q2 q3 a0 a1 a2 a3 (Q : state -> Prop) : let len := ieval (iv st) e in
  peval (iv st) (pv st) po = Some q0 -> peval (iv st) (pv st) p1 = Some q1 -> peval (iv st) (pv st) p2 = Some q2 -> peval (iv st) (pv st) p3 = Some q3 ->
  length a0 = len -> length a1 = len -> length a2 = len -> length a3 = len -> bytes_ok a1 -> bytes_ok a2 -> bytes_ok a3 ->
  pts (nx st) (mm st) q0 a0 -> pts (nx st) (mm st) q1 a1 -> pts (nx st) (mm st) q2 a2 -> pts (nx st) (mm st) q3 a3 ->
  disj q0 len q1 len -> disj q0 len q2 len -> disj q0 len q3 len -> aligned q0 -> aligned q1 -> aligned q2 -> aligned q3 ->
  (forall m', pts (nx st) m' q0 (lxor_list (lxor_list a1 a2) a3) -> chg (nx st) (mm st) m' [(q0, len)] -> Q (set_mm st m')) ->
  runs U (c_xor_three po p1 p2 p3 e) st Q.
Proof.
  cbv zeta. intros E0 E1 E2 E3 L0 L1 L2 L3 B1 B2 B3 H0 H1 H2 H3 D1 D2 D3 A0 A1 A2 A3 HQ. unfold c_xor_three.
  eapply runs_call; [cbn [pargevals pargeval pevals]; rewrite E0, E1, E2, E3; reflexivity|]. cbn [map].
  apply (xor_three_loop U (nx st) (mm st) q0 q1 q2 q3 a0 a1 a2 a3 (ieval (iv st) e)); auto.
Qed.
