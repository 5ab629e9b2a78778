(** ceil_log2, numBytes, parity. *)

From Coq Require Import List NArith Arith Bool Btauto Lia ZifyBool ZifyNat ZifyN.
From Verif Require Import Base Params Env Spec LowMC Tree Picnic3 BaseFacts LowMCFacts.
Import ListNotations.

Local Open Scope N_scope.

(** ** nlz *)
Definition nlz_step (k n x : N) : N * N :=
  if N.eqb (N.shiftr x (32 - k)) 0 then (n + k, shl32 x k) else (n, x).

Lemma shiftr_zero x k : N.shiftr x k = 0 <-> x < 2 ^ k.
Proof.
  rewrite N.shiftr_div_pow2. split; intros H.
  - apply N.div_small_iff; auto. apply N.pow_nonzero; lia.
  - apply N.div_small; auto.
Qed.

Lemma nlz_step_spec k n x n' x' :
  0 < k -> k <= 16 -> 2 ^ (32 - 2 * k) <= x -> x < 2 ^ 32 ->
  nlz_step k n x = (n', x') ->
  2 ^ (32 - k) <= x' /\ x' < 2 ^ 32 /\ n' + (31 - N.log2 x') = n + (31 - N.log2 x).
Proof.
  intros Hk0 Hk Hlo Hhi. unfold nlz_step.
  assert (Hx : 0 < x).
  { pose proof (N.pow_nonzero 2 (32 - 2 * k)). lia. }
  destruct (N.eqb_spec (N.shiftr x (32 - k)) 0) as [He|He]; intros H; injection H as <- <-.
  - apply shiftr_zero in He. unfold shl32. rewrite N.shiftl_mul_pow2.
    assert (Hlt : x * 2 ^ k < 2 ^ 32).
    { replace 32 with ((32 - k) + k) by lia. rewrite N.pow_add_r.
      apply N.mul_lt_mono_pos_r; auto. pose proof (N.pow_nonzero 2 k). lia. }
    rewrite N.mod_small by auto.
    assert (Hlog : N.log2 (x * 2 ^ k) = N.log2 x + k).
    { rewrite <- N.shiftl_mul_pow2, N.log2_shiftl by lia. lia. }
    rewrite Hlog. repeat split; auto.
    + replace (32 - k) with ((32 - 2 * k) + k) by lia. rewrite N.pow_add_r.
      apply N.mul_le_mono_r; auto.
    + assert (N.log2 x < 32 - k) by (apply N.log2_lt_pow2; auto). lia.
  - assert (2 ^ (32 - k) <= x).
    { apply N.le_ngt. intros Hc. apply He. apply shiftr_zero; auto. }
    auto.
Qed.

Lemma nlz_unfold x : x <> 0 ->
  nlz x = (let '(n1, x1) := nlz_step 16 1 x in
           let '(n2, x2) := nlz_step 8 n1 x1 in
           let '(n3, x3) := nlz_step 4 n2 x2 in
           let '(n4, x4) := nlz_step 2 n3 x3 in
           n4 - N.shiftr x4 31).
Proof.
  intros H. unfold nlz, nlz_step. apply N.eqb_neq in H. rewrite H. reflexivity.
Qed.

Lemma nlz_spec x : 0 < x -> x < 2 ^ 32 -> nlz x = 31 - N.log2 x.
Proof.
  intros H0 H1. rewrite nlz_unfold by lia.
  destruct (nlz_step 16 1 x) as [n1 x1] eqn:E1.
  apply (nlz_step_spec 16 1 x n1 x1 ltac:(lia) ltac:(lia)
           ltac:(change (2 ^ (32 - 2 * 16)) with 1; lia) H1) in E1.
  destruct (nlz_step 8 n1 x1) as [n2 x2] eqn:E2.
  apply (nlz_step_spec 8 n1 x1 n2 x2 ltac:(lia) ltac:(lia)
           (proj1 E1) (proj1 (proj2 E1))) in E2.
  destruct (nlz_step 4 n2 x2) as [n3 x3] eqn:E3.
  apply (nlz_step_spec 4 n2 x2 n3 x3 ltac:(lia) ltac:(lia)
           (proj1 E2) (proj1 (proj2 E2))) in E3.
  destruct (nlz_step 2 n3 x3) as [n4 x4] eqn:E4.
  apply (nlz_step_spec 2 n3 x3 n4 x4 ltac:(lia) ltac:(lia)
           (proj1 E3) (proj1 (proj2 E3))) in E4.
  destruct E1 as (_ & _ & E1), E2 as (_ & _ & E2), E3 as (_ & _ & E3), E4 as (Hlo & Hhi & E4).
  rewrite N.shiftr_div_pow2. change (2 ^ (32 - 2)) with (2 ^ 30) in Hlo.
  assert (30 <= N.log2 x4) by (apply N.log2_le_pow2; lia).
  assert (N.log2 x4 < 32) by (apply N.log2_lt_pow2; lia).
  destruct (N.lt_ge_cases x4 (2 ^ 31)).
  - rewrite N.div_small by auto.
    assert (N.log2 x4 < 31) by (apply N.log2_lt_pow2; lia). lia.
  - assert (x4 / 2 ^ 31 = 1) by (apply N.le_antisymm;
      [apply N.lt_succ_r, N.div_lt_upper_bound; lia|apply N.div_le_lower_bound; lia]).
    assert (31 <= N.log2 x4) by (apply N.log2_le_pow2; lia). lia.
Qed.

Lemma ceil_log2_spec x : 0 < x -> x < 2 ^ 32 -> ceil_log2 x = N.log2_up x.
Proof.
  intros H0 H1. unfold ceil_log2. replace (x =? 0) with false by lia.
  destruct (N.eq_dec x 1) as [->|Hx]; [reflexivity|].
  rewrite nlz_spec by lia. rewrite N.log2_up_eqn by lia.
  rewrite <- N.sub_1_r.
  assert (N.log2 (x - 1) < 32) by (apply N.log2_lt_pow2; lia). lia.
Qed.

Lemma ceil_log2_least x : 0 < x -> x < 2 ^ 32 ->
  x <= 2 ^ ceil_log2 x /\ forall k, x <= 2 ^ k -> ceil_log2 x <= k.
Proof.
  intros H0 H1. rewrite ceil_log2_spec by auto. split.
  - destruct (N.eq_dec x 1) as [->|]; [simpl; lia|]. apply N.log2_up_spec; lia.
  - intros k Hk. apply N.log2_up_le_pow2; auto.
Qed.

Lemma ceil_log2_nat_spec n : (0 < n)%nat -> N.of_nat n < 2 ^ 32 -> ceil_log2_nat n = Nat.log2_up n.
Proof.
  intros H0 H1. unfold ceil_log2_nat. rewrite N.mod_small by auto.
  rewrite ceil_log2_spec by lia.
  destruct (Nat.eq_dec n 1) as [->|]; [reflexivity|].
  symmetry. apply Nat.log2_up_unique; [|].
  - assert (0 < N.log2_up (N.of_nat n)) by (apply N.log2_up_pos; lia). lia.
  - destruct (N.log2_up_spec (N.of_nat n) ltac:(lia)) as [Ha Hb].
    assert (Hp : forall k, N.of_nat (2 ^ k) = 2 ^ N.of_nat k).
    { intros k. rewrite Nat2N.inj_pow. reflexivity. }
    split.
    + assert (N.of_nat (2 ^ Nat.pred (N.to_nat (N.log2_up (N.of_nat n)))) < N.of_nat n).
      { rewrite Hp. replace (N.of_nat (Nat.pred (N.to_nat (N.log2_up (N.of_nat n)))))
          with (N.pred (N.log2_up (N.of_nat n))) by lia. auto. }
      lia.
    + assert (N.of_nat n <= N.of_nat (2 ^ N.to_nat (N.log2_up (N.of_nat n)))).
      { rewrite Hp, N2Nat.id. auto. }
      lia.
Qed.

Local Close Scope N_scope.

(** ** Parity *)
Lemma parity16_spec x : parity16 x = xsum 16 (fun i => N.testbit x (N.of_nat i)).
Proof.
  unfold parity16. rewrite land_1_eqb.
  repeat first [rewrite N.lxor_spec | rewrite N.shiftr_spec by lia].
  unfold xsum. cbn [N.of_nat Pos.of_succ_nat Pos.succ N.add Pos.add Pos.add_carry].
  btauto.
Qed.
