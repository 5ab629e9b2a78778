(** LowMC evaluated with the outputs of the AND gates supplied from outside. The state of one
    party of the multiparty evaluations has this form. *)

From Coq Require Import List NArith Arith Bool Btauto Lia ZifyBool ZifyNat ZifyN.
From Verif Require Import Base Params Env Spec BaseFacts LowMCFacts LowMCInj.
Import ListNotations.

(** S-box layer; gates of S-box [k]: ab, bc, ca at positions [base+3k], [+1], [+2] of [h]. *)
Definition hsbox (m base : nat) (v h : vec) : vec :=
  fun i =>
    if i <? 3 * m then
      let k := i / 3 in
      let c := v (3 * k) in
      let b := v (3 * k + 1) in
      let a := v (3 * k + 2) in
      match i mod 3 with
      | 0 => xorb (xorb (xorb a b) c) (h (base + 3 * k))
      | 1 => xorb (xorb a b) (h (base + 3 * k + 2))
      | _ => xorb a (h (base + 3 * k + 1))
      end
    else v i.

(** State after [i] rounds; [cst] tells whether plaintext and round constants are added. *)
Fixpoint hst (L : lowmc) (cst : bool) (key pt h : vec) (i : nat) : vec :=
  match i with
  | O => fun j => xorb (cst && pt j) (matvec (lm_n L) (lm_K L 0) key j)
  | S i' => fun j =>
      xorb (xorb (matvec (lm_n L) (lm_L L i')
                    (hsbox (lm_m L) (3 * lm_m L * i') (hst L cst key pt h i') h) j)
                 (cst && lm_C L i' j))
           (matvec (lm_n L) (lm_K L (S i')) key j)
  end.

(** Operands of gate [x] of S-box [k]. *)
Definition gin1 (k x : nat) : nat := match x with 0 => 3 * k + 2 | 1 => 3 * k + 1 | _ => 3 * k end.
Definition gin2 (k x : nat) : nat := match x with 0 => 3 * k + 1 | 1 => 3 * k | _ => 3 * k + 2 end.
Definition gpos (m i k x : nat) : nat := 3 * m * i + (3 * k + x).

Lemma hsbox_at m base v h k x : k < m -> x < 3 ->
  hsbox m base v h (3 * k + x) =
  match x with
  | 0 => xorb (xorb (xorb (v (3 * k + 2)) (v (3 * k + 1))) (v (3 * k))) (h (base + 3 * k))
  | 1 => xorb (xorb (v (3 * k + 2)) (v (3 * k + 1))) (h (base + 3 * k + 2))
  | _ => xorb (v (3 * k + 2)) (h (base + 3 * k + 1))
  end.
Proof.
  intros Hk Hx. unfold hsbox. destruct (mod3_cases k x Hx) as [-> ->].
  replace (3 * k + x <? 3 * m) with true by lia. reflexivity.
Qed.

Lemma hsbox_out m base v h i : 3 * m <= i -> hsbox m base v h i = v i.
Proof. intros H. unfold hsbox. replace (i <? 3 * m) with false by lia. auto. Qed.

Lemma split3 i m : i < 3 * m -> exists k x, k < m /\ x < 3 /\ i = 3 * k + x.
Proof. intros H. pose proof (div3_spec i). exists (i / 3), (i - 3 * (i / 3)). lia. Qed.

(** Case analysis on an index: inside the S-box layer or not. *)
Lemma hsbox_ext n m base u v h h' i :
  3 * m <= n -> veq n u v -> (forall p, base <= p < base + 3 * m -> h p = h' p) -> i < n ->
  hsbox m base u h i = hsbox m base v h' i.
Proof.
  intros Hm Hv Hh Hi. destruct (Nat.lt_ge_cases i (3 * m)) as [Hl|Hl].
  - destruct (split3 i m Hl) as (k & x & Hk & Hx & ->). rewrite !hsbox_at by auto.
    destruct x as [|[|x]]; rewrite ?Hh, ?(Hv (3 * k + 2)), ?(Hv (3 * k + 1)), ?(Hv (3 * k)) by lia;
      reflexivity.
  - rewrite !hsbox_out by auto. auto.
Qed.

Lemma hst_ext L cst key key' pt pt' h h' i :
  3 * lm_m L <= lm_n L ->
  veq (lm_n L) key key' -> veq (lm_n L) pt pt' ->
  (forall p, p < 3 * lm_m L * i -> h p = h' p) ->
  veq (lm_n L) (hst L cst key pt h i) (hst L cst key' pt' h' i).
Proof.
  intros Hm Hk Hp. induction i as [|i IH]; intros Hh j Hj; simpl.
  - rewrite (Hp j Hj). f_equal. apply matvec_ext; auto.
  - f_equal; [f_equal|].
    + apply matvec_ext. intros l Hl. apply (hsbox_ext (lm_n L)); auto.
      * apply IH. intros p Hp'. apply Hh. lia.
      * intros p Hp'. apply Hh. lia.
    + apply matvec_ext; auto.
Qed.

(** ** Linearity *)
Lemma hsbox_xor m base u v h h' i :
  hsbox m base (vxor u v) (vxor h h') i = xorb (hsbox m base u h i) (hsbox m base v h' i).
Proof.
  unfold hsbox, vxor. destruct (i <? 3 * m); auto.
  destruct (i mod 3) as [|[|x]]; btauto.
Qed.

Lemma hst_xor L c c' key key' pt pt' ptx h h' i :
  3 * lm_m L <= lm_n L ->
  (forall j, j < lm_n L -> xorb (c && pt j) (c' && pt' j) = (xorb c c' && ptx j)) ->
  veq (lm_n L) (vxor (hst L c key pt h i) (hst L c' key' pt' h' i))
      (hst L (xorb c c') (vxor key key') ptx (vxor h h') i).
Proof.
  intros Hm Hpt. induction i as [|i IH]; intros j Hj.
  - unfold vxor. simpl. rewrite <- Hpt by auto.
    change (fun i0 => xorb (key i0) (key' i0)) with (vxor key key'). rewrite matvec_xor. btauto.
  - unfold vxor at 1. cbn [hst].
    set (A := hst L c key pt h i) in *. set (B := hst L c' key' pt' h' i) in *.
    set (X := hst L (xorb c c') _ _ _ i) in *.
    rewrite (matvec_xor _ _ key key').
    rewrite (matvec_ext (lm_n L) (lm_L L i) (hsbox (lm_m L) (3 * lm_m L * i) X (vxor h h'))
               (vxor (hsbox (lm_m L) (3 * lm_m L * i) A h) (hsbox (lm_m L) (3 * lm_m L * i) B h'))).
    + rewrite matvec_xor. btauto.
    + intros l Hl. unfold vxor at 2. rewrite <- hsbox_xor.
      apply (hsbox_ext (lm_n L)); auto. intros q Hq. symmetry. apply IH; auto.
Qed.

(** If the supplied gate outputs are the products of the state bits, the result is LowMC. *)
Definition gates_real (L : lowmc) (s : nat -> vec) (h : vec) : Prop :=
  forall i k x, i < lm_r L -> k < lm_m L -> x < 3 ->
    h (gpos (lm_m L) i k x) = s i (gin1 k x) && s i (gin2 k x).

Lemma hst_real L key pt h i :
  3 * lm_m L <= lm_n L -> i <= lm_r L ->
  gates_real L (hst L true key pt h) h ->
  veq (lm_n L) (hst L true key pt h i) (lowmc_state L key pt i).
Proof.
  intros Hm. induction i as [|i IH]; intros Hi Hg j Hj.
  - simpl. unfold vxor. auto.
  - simpl. unfold vxor. f_equal. f_equal. apply matvec_ext. intros l Hl.
    assert (Hv : veq (lm_n L) (hst L true key pt h i) (lowmc_state L key pt i)) by (apply IH; auto; lia).
    destruct (Nat.lt_ge_cases l (3 * lm_m L)) as [H|H].
    + destruct (split3 l _ H) as (k & x & Hk & Hx & ->).
      rewrite hsbox_at, sbox_layer_at by auto. cbv zeta.
      pose proof (Hg i k 0 ltac:(lia) Hk ltac:(lia)) as G0.
      pose proof (Hg i k 1 ltac:(lia) Hk ltac:(lia)) as G1.
      pose proof (Hg i k 2 ltac:(lia) Hk ltac:(lia)) as G2.
      unfold gpos, gin1, gin2 in *. rewrite Nat.add_0_r in G0.
      rewrite <- Nat.add_assoc. rewrite <- !Nat.add_assoc in *.
      rewrite G0, G1, G2. rewrite !Hv by lia.
      destruct x as [|[|x]]; try btauto.
    + rewrite hsbox_out by auto. unfold sbox_layer.
      replace (l <? 3 * lm_m L) with false by lia. auto.
Qed.

(** Decomposition of gate positions. *)
Lemma gpos_split m i p : p < 3 * m * S i -> p < 3 * m * i \/ exists k x, k < m /\ x < 3 /\ p = gpos m i k x.
Proof.
  intros H. destruct (Nat.lt_ge_cases p (3 * m * i)) as [|Hge]; [auto|right].
  destruct (split3 (p - 3 * m * i) m ltac:(lia)) as (k & x & Hk & Hx & He).
  exists k, x. unfold gpos. split; auto. split; auto. lia.
Qed.

Lemma gpos_lt m r i k x : i < r -> k < m -> x < 3 -> gpos m i k x < 3 * m * r.
Proof. intros. unfold gpos. nia. Qed.

Lemma gin_lt k x m : k < m -> gin1 k x < 3 * m /\ gin2 k x < 3 * m.
Proof. intros. unfold gin1, gin2. destruct x as [|[|x]]; lia. Qed.

(** ** ZKB++ gates: one party and its successor *)
Definition andf (a b a' b' r r' : bool) : bool :=
  xorb (xorb (xorb (xorb (a && b') (a' && b)) (a && b)) r) r'.

Definition gates (L : lowmc) (s s' : nat -> vec) (h t t' : vec) : Prop :=
  forall i k x, i < lm_r L -> k < lm_m L -> x < 3 ->
    let p := gpos (lm_m L) i k x in
    h p = andf (s i (gin1 k x)) (s i (gin2 k x)) (s' i (gin1 k x)) (s' i (gin2 k x)) (t p) (t' p).

Lemma andf_sum a0 a1 a2 b0 b1 b2 r0 r1 r2 :
  xorb (xorb (andf a0 b0 a1 b1 r0 r1) (andf a1 b1 a2 b2 r1 r2)) (andf a2 b2 a0 b0 r2 r0)
  = xorb (xorb a0 a1) a2 && xorb (xorb b0 b1) b2.
Proof. unfold andf. btauto. Qed.

(** Correctness of the three-party evaluation, and 3-special soundness, at the bit level. *)
Lemma gates3_correct L pt x0 x1 x2 h0 h1 h2 t0 t1 t2 :
  3 * lm_m L <= lm_n L ->
  let s0 := hst L true x0 pt h0 in
  let s1 := hst L false x1 pt h1 in
  let s2 := hst L false x2 pt h2 in
  gates L s0 s1 h0 t0 t1 -> gates L s1 s2 h1 t1 t2 -> gates L s2 s0 h2 t2 t0 ->
  veq (lm_n L) (vxor (vxor (s0 (lm_r L)) (s1 (lm_r L))) (s2 (lm_r L)))
      (lowmc_enc L (vxor (vxor x0 x1) x2) pt).
Proof.
  intros Hm s0 s1 s2 G0 G1 G2.
  assert (Hx : forall i, veq (lm_n L) (vxor (vxor (s0 i) (s1 i)) (s2 i))
            (hst L true (vxor (vxor x0 x1) x2) pt (vxor (vxor h0 h1) h2) i)).
  { intros i j Hj.
    pose proof (hst_xor L true false x0 x1 pt pt pt h0 h1 i Hm) as H1.
    pose proof (hst_xor L true false (vxor x0 x1) x2 pt pt pt (vxor h0 h1) h2 i Hm) as H2.
    cbn [xorb] in *. rewrite <- H2; auto.
    - unfold vxor at 1 3. f_equal. apply H1; auto. intros; btauto.
    - intros; btauto. }
  intros j Hj. rewrite Hx by auto. apply hst_real; auto.
  intros i k x Hi Hk Hxx.
  destruct (gin_lt k x _ Hk) as [Hg1 Hg2].
  rewrite <- !Hx by lia.
  specialize (G0 i k x Hi Hk Hxx). specialize (G1 i k x Hi Hk Hxx). specialize (G2 i k x Hi Hk Hxx).
  cbv zeta in *. unfold vxor. rewrite G0, G1, G2. apply andf_sum.
Qed.

(** The verifier's reconstruction is unique: the communicated bits of a party are determined by
    the inputs, the tapes and the communicated bits of its successor. *)
Lemma gates2_unique L c c' pt x x' h h2 g t t' :
  3 * lm_m L <= lm_n L ->
  gates L (hst L c x pt h) (hst L c' x' pt h2) h t t' ->
  gates L (hst L c x pt g) (hst L c' x' pt h2) g t t' ->
  forall p, p < 3 * lm_m L * lm_r L -> h p = g p.
Proof.
  intros Hm Gh Gg.
  assert (H : forall i, i <= lm_r L -> forall p, p < 3 * lm_m L * i -> h p = g p).
  { induction i as [|i IH]; intros Hi p Hp; [lia|].
    destruct (gpos_split _ _ _ Hp) as [Hp'|(k & y & Hk & Hy & ->)]; [apply IH; auto; lia|].
    rewrite (Gh i k y), (Gg i k y) by lia. destruct (gin_lt k y _ Hk) as [Hg1 Hg2].
    assert (He : veq (lm_n L) (hst L c x pt h i) (hst L c x pt g i)).
    { apply hst_ext; auto; try (intros q Hq; reflexivity). apply IH; lia. }
    rewrite !He by lia. reflexivity. }
  apply H; auto.
Qed.

(** The signer's communicated bits are unique. *)
Lemma gates3_unique L pt x0 x1 x2 h0 h1 h2 g0 g1 g2 t0 t1 t2 :
  3 * lm_m L <= lm_n L ->
  gates L (hst L true x0 pt h0) (hst L false x1 pt h1) h0 t0 t1 ->
  gates L (hst L false x1 pt h1) (hst L false x2 pt h2) h1 t1 t2 ->
  gates L (hst L false x2 pt h2) (hst L true x0 pt h0) h2 t2 t0 ->
  gates L (hst L true x0 pt g0) (hst L false x1 pt g1) g0 t0 t1 ->
  gates L (hst L false x1 pt g1) (hst L false x2 pt g2) g1 t1 t2 ->
  gates L (hst L false x2 pt g2) (hst L true x0 pt g0) g2 t2 t0 ->
  forall p, p < 3 * lm_m L * lm_r L -> h0 p = g0 p /\ h1 p = g1 p /\ h2 p = g2 p.
Proof.
  intros Hm H0 H1 H2 G0 G1 G2.
  assert (H : forall i, i <= lm_r L -> forall p, p < 3 * lm_m L * i ->
                h0 p = g0 p /\ h1 p = g1 p /\ h2 p = g2 p).
  { induction i as [|i IH]; intros Hi p Hp; [lia|].
    destruct (gpos_split _ _ _ Hp) as [Hp'|(k & y & Hk & Hy & ->)]; [apply IH; auto; lia|].
    destruct (gin_lt k y _ Hk) as [Hg1 Hg2].
    assert (E0 : veq (lm_n L) (hst L true x0 pt h0 i) (hst L true x0 pt g0 i))
      by (apply hst_ext; auto; try (intros q Hq; reflexivity); intros; apply IH; lia).
    assert (E1 : veq (lm_n L) (hst L false x1 pt h1 i) (hst L false x1 pt g1 i))
      by (apply hst_ext; auto; try (intros q Hq; reflexivity); intros; apply IH; lia).
    assert (E2 : veq (lm_n L) (hst L false x2 pt h2 i) (hst L false x2 pt g2 i))
      by (apply hst_ext; auto; try (intros q Hq; reflexivity); intros; apply IH; lia).
    rewrite (H0 i k y), (H1 i k y), (H2 i k y), (G0 i k y), (G1 i k y), (G2 i k y) by lia.
    rewrite !E0, !E1, !E2 by lia. auto. }
  apply H; auto.
Qed.

Lemma gates_ext L s1 s1' s2 s2' h h' t t' u u' :
  3 * lm_m L <= lm_n L ->
  (forall i, i < lm_r L -> veq (lm_n L) (s1 i) (s2 i)) ->
  (forall i, i < lm_r L -> veq (lm_n L) (s1' i) (s2' i)) ->
  (forall p, p < 3 * lm_m L * lm_r L -> h p = h' p /\ t p = u p /\ t' p = u' p) ->
  gates L s1 s1' h t t' -> gates L s2 s2' h' u u'.
Proof.
  intros Hm Hs Hs' Hh G i k x Hi Hk Hx. cbv zeta.
  destruct (Hh (gpos (lm_m L) i k x)) as (<- & <- & <-); [apply gpos_lt; auto|].
  destruct (gin_lt k x _ Hk). rewrite (G i k x), !Hs, !Hs' by (auto; lia). reflexivity.
Qed.
