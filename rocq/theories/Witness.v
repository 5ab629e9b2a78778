(** A concrete environment and concrete keys, used only to show that the hypotheses of the
    property theorems can be met. *)

From Coq Require Import List NArith Arith Bool Lia ZifyBool ZifyNat ZifyN.
From Verif Require Import Base Params Env Spec LowMC Api ApiSpec BaseFacts ParamFacts LowMCFacts ApiFacts.
Import ListNotations.

(** Row-by-row identity matrix, padded rows. *)
Definition unit_row (W i : nat) : bytes := set_bit (zeros (4 * W)) i true.
Definition identity_bytes (n W : nat) : bytes := concat (map (unit_row W) (seq 0 n)).

(** A toy hash: all output bytes equal a checksum of the input. *)
Definition checksum (m : bytes) : N := fold_left (fun a x => N.modulo (3 * a + x + 1) 256) m 0%N.
Definition toy_xof (b : bool) (m : bytes) (n : nat) : bytes :=
  repeat (N.modulo (checksum m + (if b then 1 else 0)) 256) n.

Definition toy_env : env := {|
  xof := toy_xof;
  uninit := fun s i n => repeat (N.modulo (N.of_nat (s + i)) 256) n;
  LMatrix := fun P _ => identity_bytes (stateSizeBits P) (stateSizeWords P);
  LMatrixInv := fun P _ => identity_bytes (stateSizeBits P) (stateSizeWords P);
  KMatrix := fun P _ => identity_bytes (stateSizeBits P) (stateSizeWords P);
  KMatrixInv := fun P _ => identity_bytes (stateSizeBits P) (stateSizeWords P);
  RConstant := fun P i => set_bit (zeros (4 * stateSizeWords P)) i true
|}.

(** The same with a hash that returns zeros. *)
Definition zero_env : env := {|
  xof := fun _ _ n => zeros n;
  uninit := fun s i n => repeat (N.modulo (N.of_nat (s + i)) 256) n;
  LMatrix := LMatrix toy_env;
  LMatrixInv := LMatrixInv toy_env;
  KMatrix := KMatrix toy_env;
  KMatrixInv := KMatrixInv toy_env;
  RConstant := RConstant toy_env
|}.

Lemma bytes_ok_repeat x n : byte x -> bytes_ok (repeat x n).
Proof. intros H. induction n; simpl; constructor; auto. Qed.

Lemma toy_env_bytes : env_bytes_ok toy_env.
Proof.
  split; intros; simpl; (split; [apply repeat_length|apply bytes_ok_repeat; unfold byte]);
    apply N.mod_lt; discriminate.
Qed.

Lemma zero_env_bytes : env_bytes_ok zero_env.
Proof.
  split; intros; simpl.
  - split; [apply length_zeros|apply bytes_ok_zeros].
  - split; [apply repeat_length|apply bytes_ok_repeat; unfold byte; apply N.mod_lt; discriminate].
Qed.

Lemma length_unit_row W i : length (unit_row W i) = 4 * W.
Proof. unfold unit_row. rewrite length_set_bit, length_zeros. auto. Qed.

Lemma length_concat_const {A} (k : nat) (l : list (list A)) :
  (forall x, In x l -> length x = k) -> length (concat l) = length l * k.
Proof.
  induction l as [|x l IH]; intros H; simpl; auto.
  rewrite app_length, IH by (intros; apply H; simpl; auto). rewrite H by (simpl; auto). lia.
Qed.

Lemma length_identity n W : length (identity_bytes n W) = n * (4 * W).
Proof.
  unfold identity_bytes. rewrite (length_concat_const (4 * W)).
  - rewrite map_length, seq_length. auto.
  - intros x Hx. apply in_map_iff in Hx. destruct Hx as (i & <- & _). apply length_unit_row.
Qed.

Lemma bytes_ok_identity n W : bytes_ok (identity_bytes n W).
Proof.
  unfold identity_bytes, bytes_ok. apply Forall_concat. apply Forall_forall.
  intros x Hx. apply in_map_iff in Hx. destruct Hx as (i & <- & _).
  apply bytes_ok_set_bit, bytes_ok_zeros.
Qed.

Lemma nth_concat_const {A} (d : A) k l i j :
  (forall x, In x l -> length x = k) -> j < k -> i < length l ->
  nth (k * i + j) (concat l) d = nth j (nth i l []) d.
Proof.
  revert i; induction l as [|x l IH]; intros i H Hj Hi; simpl in *; [lia|].
  destruct i as [|i].
  - rewrite Nat.mul_0_r. simpl. rewrite app_nth1; auto. rewrite H; auto.
  - rewrite app_nth2; rewrite (H x) by auto; [|nia].
    replace (k * S i + j - k) with (k * i + j) by nia. apply IH; auto. lia.
Qed.

Lemma mat_identity n W : n <= 32 * W -> is_identity n (mat_of_bytes W (identity_bytes n W)).
Proof.
  intros HW i j Hi Hj. unfold mat_of_bytes, bit, identity_bytes.
  replace (32 * W * i + j) with ((4 * W * i) * 8 + j) by lia.
  rewrite Nat.div_add_l by lia.
  replace ((4 * W * i * 8 + j) mod 8) with (j mod 8)
    by (rewrite Nat.add_comm, Nat.mod_add; lia).
  rewrite nth_concat_const.
  - rewrite (nth_indep _ [] (unit_row W 0)) by (rewrite map_length, seq_length; auto).
    rewrite map_nth, seq_nth by auto. simpl.
    fold (bit (unit_row W i) j). unfold unit_row.
    rewrite bit_set_bit by (rewrite length_zeros; apply lt_div8; lia).
    rewrite bit_zeros. rewrite Nat.eqb_sym. destruct (i =? j); auto.
  - intros x Hx. apply in_map_iff in Hx. destruct Hx as (k & <- & _). apply length_unit_row.
  - apply lt_div8; lia.
  - rewrite map_length, seq_length. auto.
Qed.

Lemma matmul_identity n A B : is_identity n A -> is_identity n B -> is_identity n (matmul n A B).
Proof.
  intros HA HB i k Hi Hk. unfold matmul.
  rewrite (xsum_single n i); auto.
  2:{ intros j Hj Hne. rewrite HA by auto. destruct (Nat.eqb_spec i j); auto. lia. }
  rewrite HA, HB, Nat.eqb_refl by auto. auto.
Qed.

Lemma toy_constants P : wfP P -> numRounds P <= stateSizeBits P -> constants_ok toy_env P.
Proof.
  intros [] Hr. split; [|split]; intros i Hi; simpl.
  - split; [apply length_identity|apply bytes_ok_identity].
  - split; [apply length_identity|apply bytes_ok_identity].
  - rewrite length_set_bit, length_zeros. split; auto.
    split; [apply bytes_ok_set_bit, bytes_ok_zeros|].
    intros j Hj. rewrite bit_set_bit by (rewrite length_zeros; apply lt_div8; lia).
    rewrite bit_zeros. destruct (Nat.eqb_spec j i); auto. lia.
Qed.

Lemma toy_inverses P : wfP P -> inverses_ok toy_env P.
Proof.
  intros []. unfold inverses_ok. simpl.
  split; [split; [apply length_identity|apply bytes_ok_identity]|].
  split; [apply matmul_identity; apply mat_identity; auto|].
  intros i Hi. split; [apply length_identity|]. split; [apply bytes_ok_identity|].
  apply matmul_identity; apply mat_identity; auto.
Qed.

Lemma rounds_le p P : get_param_set p = Some P -> numRounds P <= stateSizeBits P.
Proof.
  intros H. apply Nat.leb_le. revert p P H.
  apply (params_forall (fun _ P => numRounds P <=? stateSizeBits P)). vm_compute. reflexivity.
Qed.

Lemma toy_constants_all p P : get_param_set p = Some P -> constants_ok toy_env P.
Proof. intros H. eapply toy_constants; eauto using get_param_set_wfP, rounds_le. Qed.
Lemma zero_constants_all p P : get_param_set p = Some P -> constants_ok zero_env P.
Proof. exact (toy_constants_all p P). Qed.
Lemma toy_inverses_all p P : get_param_set p = Some P -> inverses_ok toy_env P.
Proof. intros H. apply toy_inverses. eapply get_param_set_wfP; eauto. Qed.

(** A random source: the requested bytes count up; two calls succeed. *)
Definition toy_rng (i n : nat) : bool * bytes :=
  (true, map (fun k => N.modulo (N.of_nat (37 * i + 11 * k + 5)) 256) (seq 0 n)).

Lemma toy_rng_wf : rng_wf toy_rng.
Proof.
  intros i n. unfold toy_rng. cbn [snd]. split; [rewrite map_length, seq_length; auto|].
  apply Forall_forall. intros x Hx. apply in_map_iff in Hx. destruct Hx as (k & <- & _).
  apply N.mod_lt. discriminate.
Qed.

(** A consistent key pair for any parameter identifier. *)
Definition toy_keys (p : N) : publickey * privatekey :=
  match picnic_keygen toy_env toy_rng p zero_pk zero_sk with
  | Ok (_, pk, sk) => (pk, sk)
  | _ => (zero_pk, zero_sk)
  end.
Definition toy_pk (p : N) := fst (toy_keys p).
Definition toy_sk (p : N) := snd (toy_keys p).

Lemma toy_keys_spec p P : get_param_set p = Some P ->
  picnic_keygen toy_env toy_rng p zero_pk zero_sk = Ok (true, toy_pk p, toy_sk p) /\
  pk_params (toy_pk p) = p /\ sk_params (toy_sk p) = p /\ sk_pk (toy_sk p) = toy_pk p /\
  sk_wf (toy_sk p) /\ pk_wf (toy_pk p) /\
  lowmc_relation toy_env P (sk_data (toy_sk p)) (pk_plaintext (toy_pk p)) (pk_ciphertext (toy_pk p)) /\
  (forall i, stateSizeBits P <= i ->
     bit (sk_data (toy_sk p)) i = false /\ bit (pk_plaintext (toy_pk p)) i = false /\
     bit (pk_ciphertext (toy_pk p)) i = false).
Proof.
  intros HP.
  pose proof (keygen_spec toy_env toy_env_bytes toy_rng p zero_pk zero_sk
                (toy_constants_all p) toy_rng_wf) as H.
  unfold toy_pk, toy_sk, toy_keys.
  destruct (picnic_keygen toy_env toy_rng p zero_pk zero_sk) as [[[r pk] sk]| | |]; try contradiction.
  cbn [ok fst snd] in *. rewrite HP in H. cbn in H. destruct H as [-> H].
  destruct (H eq_refl) as (P' & HP' & H'). injection HP' as <-.
  split; auto.
Qed.

Lemma toy_padding p P : get_param_set p = Some P ->
  sk_padding_zero P (toy_sk p) /\ pk_padding_zero P (toy_pk p).
Proof.
  intros HP. destruct (toy_keys_spec p P HP) as (_ & _ & _ & Hpk & _ & _ & _ & H).
  unfold sk_padding_zero, pk_padding_zero, padding_zero. rewrite Hpk.
  repeat split; intros i Hi; apply H; lia.
Qed.

Lemma toy_invertible : exists P, get_param_set Picnic3_L1 = Some P /\
  3 * lm_m (lowmc_of toy_env P) <= lm_n (lowmc_of toy_env P) /\
  (forall j, j < lm_r (lowmc_of toy_env P) ->
     invertible (lm_n (lowmc_of toy_env P)) (lm_L (lowmc_of toy_env P) j)).
Proof.
  destruct (get_param_set Picnic3_L1) as [P|] eqn:HP; [|discriminate HP]. exists P.
  pose proof (get_param_set_wfP _ _ HP) as Hw. destruct Hw.
  split; auto. split; [auto|]. intros j Hj.
  exists (mat_of_bytes (stateSizeWords P) (identity_bytes (stateSizeBits P) (stateSizeWords P))).
  split; apply matmul_identity; apply mat_identity; auto.
Qed.
