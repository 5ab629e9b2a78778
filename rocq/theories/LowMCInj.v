(** Algebra of LowMC: linearity, injectivity of encryption under a fixed key. *)

From Coq Require Import List NArith Arith Bool Btauto Lia ZifyBool ZifyNat ZifyN.
From Verif Require Import Base Params Env Spec BaseFacts LowMCFacts.
Import ListNotations.

Lemma matvec_xor n M u v i : matvec n M (vxor u v) i = xorb (matvec n M u i) (matvec n M v i).
Proof.
  unfold matvec, vxor. rewrite <- xsum_xorb. apply xsum_ext. intros j _.
  destruct (M i j); simpl; auto.
Qed.

Lemma matvec_zero n M i : matvec n M vzero i = false.
Proof.
  unfold matvec, vzero. rewrite (xsum_ext n _ (fun _ => false)) by (intros; apply andb_false_r).
  apply xsum_false.
Qed.

Lemma matvec_matmul n A B v i : matvec n (matmul n A B) v i = matvec n A (matvec n B v) i.
Proof.
  unfold matvec, matmul.
  transitivity (xsum n (fun k => xsum n (fun j => A i j && (B j k && v k)))).
  - apply xsum_ext. intros k _. rewrite andb_comm, <- xsum_and. apply xsum_ext. intros; btauto.
  - rewrite xsum_swap. apply xsum_ext. intros j _. apply xsum_and.
Qed.

Lemma matvec_identity n A v i : is_identity n A -> i < n -> matvec n A v i = v i.
Proof.
  intros HA Hi. unfold matvec. rewrite (xsum_single n i); auto.
  - rewrite HA, Nat.eqb_refl by auto. auto.
  - intros j Hj Hne. rewrite HA by auto. destruct (Nat.eqb_spec i j); auto. congruence.
Qed.

Lemma matvec_inj n M u v : invertible n M -> veq n (matvec n M u) (matvec n M v) -> veq n u v.
Proof.
  intros (M' & _ & HM) H i Hi.
  rewrite <- (matvec_identity n (matmul n M' M) u i), <- (matvec_identity n (matmul n M' M) v i) by auto.
  rewrite !matvec_matmul. apply matvec_ext. auto.
Qed.

Lemma mod3_cases k x : x < 3 -> (3 * k + x) / 3 = k /\ (3 * k + x) mod 3 = x.
Proof.
  intros Hx. split.
  - rewrite Nat.mul_comm, Nat.div_add_l, (Nat.div_small x) by lia. lia.
  - rewrite Nat.add_comm, Nat.mul_comm, Nat.mod_add, Nat.mod_small by lia. auto.
Qed.

Lemma sbox_layer_at m v k x : k < m -> x < 3 ->
  sbox_layer m v (3 * k + x) =
  let c := v (3 * k) in let b := v (3 * k + 1) in let a := v (3 * k + 2) in
  match x with
  | 0 => xorb (xorb (xorb a b) c) (a && b)
  | 1 => xorb (xorb a b) (a && c)
  | _ => xorb a (b && c)
  end.
Proof.
  intros Hk Hx. unfold sbox_layer. destruct (mod3_cases k x Hx) as [-> ->].
  replace (3 * k + x <? 3 * m) with true by lia. reflexivity.
Qed.

Lemma sbox_layer_inj n m u v : 3 * m <= n ->
  veq n (sbox_layer m u) (sbox_layer m v) -> veq n u v.
Proof.
  intros Hm H i Hi. destruct (Nat.lt_ge_cases i (3 * m)) as [Hlt|Hge].
  - pose (k := i / 3). pose proof (div3_spec i) as Hd. fold k in Hd.
    assert (Hk : k < m) by lia. clearbody k.
    pose proof (H (3 * k + 0) ltac:(lia)) as H0. pose proof (H (3 * k + 1) ltac:(lia)) as H1.
    pose proof (H (3 * k + 2) ltac:(lia)) as H2.
    rewrite !sbox_layer_at in H0, H1, H2 by lia. cbv zeta in *.
    assert (Hi3 : i = 3 * k \/ i = 3 * k + 1 \/ i = 3 * k + 2) by lia.
    destruct Hi3 as [->|[->| ->]];
      destruct (u (3 * k)), (u (3 * k + 1)), (u (3 * k + 2)), (v (3 * k)), (v (3 * k + 1)),
        (v (3 * k + 2)); simpl in *; congruence.
  - specialize (H i Hi). unfold sbox_layer in H. replace (i <? 3 * m) with false in H by lia. auto.
Qed.

Lemma xorb_cancel_r a b c : xorb a c = xorb b c -> a = b.
Proof. destruct a, b, c; simpl; congruence. Qed.

Lemma lowmc_state_inj L key p p' i :
  3 * lm_m L <= lm_n L -> (forall j, j < i -> invertible (lm_n L) (lm_L L j)) ->
  veq (lm_n L) (lowmc_state L key p i) (lowmc_state L key p' i) -> veq (lm_n L) p p'.
Proof.
  intros Hm. induction i as [|i IH]; intros HL H.
  - intros j Hj. specialize (H j Hj). simpl in H. unfold vxor in H. apply xorb_cancel_r in H. auto.
  - apply IH; [auto|]. apply (sbox_layer_inj (lm_n L) (lm_m L)); auto.
    apply (matvec_inj (lm_n L) (lm_L L i)); auto.
    intros j Hj. specialize (H j Hj). simpl in H. unfold vxor in H.
    apply xorb_cancel_r, xorb_cancel_r in H. auto.
Qed.

Lemma lowmc_enc_inj L key p p' :
  3 * lm_m L <= lm_n L -> (forall j, j < lm_r L -> invertible (lm_n L) (lm_L L j)) ->
  veq (lm_n L) (lowmc_enc L key p) (lowmc_enc L key p') -> veq (lm_n L) p p'.
Proof. apply lowmc_state_inj. Qed.

Lemma lowmc_state_ext L key key' p p' i :
  3 * lm_m L <= lm_n L -> veq (lm_n L) key key' -> veq (lm_n L) p p' ->
  veq (lm_n L) (lowmc_state L key p i) (lowmc_state L key' p' i).
Proof.
  intros Hm Hk Hp. induction i as [|i IH]; intros j Hj; simpl; unfold vxor.
  - rewrite Hp by auto. f_equal. apply matvec_ext; auto.
  - f_equal; [f_equal|].
    + apply matvec_ext. intros l Hl. apply (sbox_layer_ext (lm_n L)); auto.
    + apply matvec_ext; auto.
Qed.

Lemma lowmc_enc_ext L key key' p p' :
  3 * lm_m L <= lm_n L -> veq (lm_n L) key key' -> veq (lm_n L) p p' ->
  veq (lm_n L) (lowmc_enc L key p) (lowmc_enc L key' p').
Proof. apply lowmc_state_ext. Qed.
