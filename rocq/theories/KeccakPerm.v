(** The permutation of the code is Keccak-f[1600]. *)

From Coq Require Import List NArith Arith Bool Lia.
From Verif Require Import Base Params Env Spec BaseFacts Keccak KeccakSpec.
Import ListNotations.

(** ** Bits of 64-bit words *)
Lemma testbit_high a n z : (a < 2 ^ n)%N -> (n <= z)%N -> N.testbit a z = false.
Proof.
  intros H Hz. destruct (N.eq_dec a 0) as [->|Ha]; [apply N.bits_0|].
  apply N.bits_above_log2. apply N.log2_lt_pow2 in H; lia.
Qed.

Lemma testbit_low_lt a n : (forall z, (n <= z)%N -> N.testbit a z = false) -> (a < 2 ^ n)%N.
Proof.
  intros H. destruct (N.eq_dec a 0) as [->|Ha]; [apply N.neq_0_lt_0, N.pow_nonzero; lia|].
  apply N.log2_lt_pow2; [lia|].
  destruct (N.lt_ge_cases (N.log2 a) n) as [L|L]; [exact L|].
  specialize (H _ L). rewrite N.bit_log2 in H by exact Ha. discriminate.
Qed.

Lemma ROL64_high a o : (a < 2 ^ 64)%N -> o < 64 -> (ROL64 a o < 2 ^ 64)%N.
Proof.
  intros Ha Ho. unfold ROL64. destruct (Nat.eqb_spec o 0) as [->|H0]; [exact Ha|].
  apply testbit_low_lt. intros z Hz. rewrite N.lxor_spec, N.mod_pow2_bits_high by exact Hz.
  rewrite N.shiftr_spec by lia. rewrite (testbit_high a 64) by (auto; lia). reflexivity.
Qed.

Lemma ROL64_spec a o z : (a < 2 ^ 64)%N -> o < 64 -> z < 64 ->
  N.testbit (ROL64 a o) (N.of_nat z) = N.testbit a (N.of_nat ((z + (64 - o)) mod 64)).
Proof.
  intros Ha Ho Hz. unfold ROL64. destruct (Nat.eqb_spec o 0) as [->|H0].
  - f_equal. f_equal. rewrite Nat.sub_0_r. rewrite <- Nat.add_mod_idemp_r by lia.
    rewrite Nat.mod_same, Nat.add_0_r by lia. symmetry. apply Nat.mod_small. exact Hz.
  - rewrite N.lxor_spec, N.mod_pow2_bits_low by lia. rewrite N.shiftr_spec by lia.
    destruct (Nat.lt_ge_cases z o) as [L|L].
    + rewrite N.shiftl_spec_low by lia. rewrite xorb_false_l. f_equal.
      rewrite Nat.mod_small by lia. lia.
    + rewrite N.shiftl_spec_high by lia. rewrite (testbit_high a 64 (N.of_nat z + _)) by (auto; lia).
      rewrite xorb_false_r. f_equal.
      replace (z + (64 - o)) with ((z - o) + 1 * 64) by lia. rewrite Nat.mod_add by lia.
      rewrite Nat.mod_small by lia. lia.
Qed.

Lemma lxor_lt a b n : (a < 2 ^ n)%N -> (b < 2 ^ n)%N -> (N.lxor a b < 2 ^ n)%N.
Proof.
  intros Ha Hb. apply testbit_low_lt. intros z Hz.
  rewrite N.lxor_spec, (testbit_high a n), (testbit_high b n) by auto. reflexivity.
Qed.

Lemma land_lt a b n : (b < 2 ^ n)%N -> (N.land a b < 2 ^ n)%N.
Proof.
  intros Hb. apply testbit_low_lt. intros z Hz.
  rewrite N.land_spec, (testbit_high b n) by auto. apply andb_false_r.
Qed.

(** ** Strings as state arrays *)
Lemma nth_flat_map {A B} (f : A -> list B) (l : list A) k i j d e :
  (forall a, length (f a) = k) -> i < length l -> j < k ->
  nth (k * i + j) (flat_map f l) d = nth j (f (nth i l e)) d.
Proof.
  intros Hk. revert i. induction l as [|a l IH]; intros i Hi Hj; [cbn in Hi; lia|].
  cbn [flat_map]. destruct i as [|i].
  - rewrite Nat.mul_0_r. cbn [Nat.add nth]. rewrite app_nth1 by (rewrite Hk; exact Hj). reflexivity.
  - rewrite app_nth2 by (rewrite Hk; nia). rewrite Hk. cbn [nth].
    replace (k * S i + j - k) with (k * i + j) by nia. apply IH; cbn in Hi; lia.
Qed.

Lemma length_flat_map_const {A B} (f : A -> list B) (l : list A) k :
  (forall a, length (f a) = k) -> length (flat_map f l) = k * length l.
Proof. intros Hk. induction l as [|a l IH]; cbn [flat_map length]; [lia|]. rewrite app_length, Hk, IH. lia. Qed.

Lemma length_row f (y : nat) : length (flat_map (fun x => map (f x y) (seq 0 64)) (seq 0 5) : bits) = 320.
Proof.
  rewrite length_flat_map_const with (k := 64); [rewrite seq_length; reflexivity|].
  intros a. rewrite map_length, seq_length. reflexivity.
Qed.

Lemma length_tab f : length (tab f) = 1600.
Proof.
  unfold tab. rewrite length_flat_map_const with (k := 320); [rewrite seq_length; reflexivity|].
  intros a. apply (length_row f).
Qed.

Lemma at3_tab f x y z : x < 5 -> y < 5 -> z < 64 -> at3 (tab f) x y z = f x y z.
Proof.
  intros Hx Hy Hz. unfold at3, tab.
  replace (64 * (5 * y + x) + z) with (320 * y + (64 * x + z)) by lia.
  rewrite nth_flat_map with (e := 0); [|intros a; apply (length_row f) | rewrite seq_length; lia | lia].
  rewrite seq_nth by lia.
  rewrite nth_flat_map with (e := 0); [| |rewrite seq_length; lia | lia].
  - rewrite seq_nth by lia. rewrite nth_indep with (d' := f (0 + x) (0 + y) 0) by (rewrite map_length, seq_length; lia).
    rewrite (map_nth (f (0 + x) (0 + y))). rewrite seq_nth by lia. reflexivity.
  - intros a. rewrite map_length, seq_length. reflexivity.
Qed.

(** ** Lanes and strings *)
Definition rep (W : list N) (S : bits) : Prop :=
  length W = 25 /\ length S = 1600 /\ Forall (fun a => (a < 2 ^ 64)%N) W /\
  forall x y z, x < 5 -> y < 5 -> z < 64 -> N.testbit (nth (5 * y + x) W 0%N) (N.of_nat z) = at3 S x y z.

Ltac lanes W HL :=
  do 25 (destruct W as [|? W]; [discriminate HL|]); destruct W as [|? W]; [|discriminate HL].

(** A step that computes lane [k] as [f k]. *)
Lemma rep_map f S :
  (forall k, k < 25 -> (f k < 2 ^ 64)%N) -> length S = 1600 ->
  (forall x y z, x < 5 -> y < 5 -> z < 64 -> N.testbit (f (5 * y + x)) (N.of_nat z) = at3 S x y z) ->
  rep (map f (seq 0 25)) S.
Proof.
  intros HB HS H. split; [rewrite map_length, seq_length; reflexivity|]. split; [exact HS|]. split.
  - apply Forall_forall. intros a Ha. apply in_map_iff in Ha as (k & <- & Hk).
    apply in_seq in Hk. apply HB. lia.
  - intros x y z Hx Hy Hz. rewrite nth_indep with (d' := f 0) by (rewrite map_length, seq_length; lia).
    rewrite (map_nth f), seq_nth by lia. apply H; assumption.
Qed.

Lemma rep_lt W S k : rep W S -> (nth k W 0 < 2 ^ 64)%N.
Proof.
  intros (HL & _ & HB & _). destruct (Nat.lt_ge_cases k (length W)) as [L|L].
  - rewrite Forall_forall in HB. apply HB. apply nth_In. exact L.
  - rewrite nth_overflow by exact L. reflexivity.
Qed.

Lemma rep_at W S x y z : rep W S -> x < 5 -> y < 5 -> z < 64 ->
  N.testbit (nth (5 * y + x) W 0%N) (N.of_nat z) = at3 S x y z.
Proof. intros (_ & _ & _ & H). apply H. Qed.

Lemma mod5 y x : x < 5 -> (5 * y + x) mod 5 = x.
Proof. intros H. rewrite Nat.add_comm, Nat.mul_comm, Nat.mod_add by lia. apply Nat.mod_small. exact H. Qed.
Lemma div5 y x : x < 5 -> (5 * y + x) / 5 = y.
Proof. intros H. rewrite Nat.add_comm, Nat.mul_comm, Nat.div_add by lia. rewrite Nat.div_small by exact H. reflexivity. Qed.
Lemma mod5_lt n : n mod 5 < 5.
Proof. apply Nat.mod_upper_bound. lia. Qed.
Lemma mod64_lt n : n mod 64 < 64.
Proof. apply Nat.mod_upper_bound. lia. Qed.

Definition wcol (W : list N) (x : nat) : N :=
  let w y := nth (5 * y + x) W 0%N in
  N.lxor (N.lxor (N.lxor (N.lxor (N.lxor 0 (w 0)) (w 1)) (w 2)) (w 3)) (w 4).

Lemma theta_eq W : length W = 25 -> theta W = Ok (map (fun k =>
  N.lxor (nth k W 0%N) (N.lxor (ROL64 (wcol W ((k mod 5 + 1) mod 5)) 1) (wcol W ((k mod 5 + 4) mod 5)))) (seq 0 25)).
Proof. intros HL. lanes W HL. lazy -[N.lxor ROL64]. reflexivity. Qed.

Lemma wcol_lt W S x : rep W S -> (wcol W x < 2 ^ 64)%N.
Proof. intros H. unfold wcol. repeat apply lxor_lt; try (apply (rep_lt W S); exact H). reflexivity. Qed.

Lemma wcol_spec W S x z : rep W S -> x < 5 -> z < 64 -> N.testbit (wcol W x) (N.of_nat z) = column S x z.
Proof.
  intros H Hx Hz. unfold wcol, column. rewrite !N.lxor_spec, N.bits_0, xorb_false_l.
  rewrite !(rep_at W S) by (auto; lia). rewrite !xorb_assoc. reflexivity.
Qed.

Lemma theta_ok W S : rep W S -> ok (theta W) (fun W' => rep W' (step_theta S)).
Proof.
  intros H. rewrite theta_eq by apply H. cbn [ok]. apply rep_map.
  - intros k Hk. apply lxor_lt; [eapply rep_lt; exact H|]. apply lxor_lt; [|eapply wcol_lt; exact H].
    apply ROL64_high; [eapply wcol_lt; exact H|lia].
  - apply length_tab.
  - intros x y z Hx Hy Hz. unfold step_theta. rewrite at3_tab by assumption.
    rewrite mod5 by exact Hx. rewrite !N.lxor_spec.
    rewrite ROL64_spec by (first [eapply wcol_lt; exact H | lia]).
    rewrite (rep_at W S), !(wcol_spec W S) by (auto using mod5_lt, mod64_lt).
    change (64 - 1) with 63. f_equal. apply xorb_comm.
Qed.

Lemma rho_eq W : length W = 25 -> rho W = Ok (map (fun k => ROL64 (nth k W 0%N) (nth k KeccakRhoOffsets 0)) (seq 0 25)).
Proof. intros HL. lanes W HL. lazy -[N.lxor ROL64]. reflexivity. Qed.

Definition all55 (f : nat -> nat -> bool) : bool :=
  forallb (fun x => forallb (fun y => f x y) (seq 0 5)) (seq 0 5).
Lemma all55_spec f x y : all55 f = true -> x < 5 -> y < 5 -> f x y = true.
Proof.
  intros H Hx Hy. unfold all55 in H. rewrite forallb_forall in H.
  specialize (H x ltac:(apply in_seq; lia)). rewrite forallb_forall in H. apply H. apply in_seq. lia.
Qed.

Lemma rho_offsets x y : x < 5 -> y < 5 ->
  nth (5 * y + x) KeccakRhoOffsets 0 = rho_offset x y /\ rho_offset x y < 64.
Proof.
  intros Hx Hy.
  pose proof (all55_spec (fun x y => (nth (5 * y + x) KeccakRhoOffsets 0 =? rho_offset x y) && (rho_offset x y <? 64))
                x y ltac:(vm_compute; reflexivity) Hx Hy) as H.
  cbv beta in H. apply andb_true_iff in H as [H1 H2]. apply Nat.eqb_eq in H1. apply Nat.ltb_lt in H2. auto.
Qed.

Lemma split25 k : k < 25 -> k = 5 * (k / 5) + k mod 5 /\ k / 5 < 5 /\ k mod 5 < 5.
Proof.
  intros H. split; [apply Nat.div_mod; lia|]. split; [|apply mod5_lt].
  apply Nat.div_lt_upper_bound; lia.
Qed.

Lemma rho_ok W S : rep W S -> ok (rho W) (fun W' => rep W' (step_rho S)).
Proof.
  intros H. rewrite rho_eq by apply H. cbn [ok]. apply rep_map.
  - intros k Hk. apply ROL64_high; [eapply rep_lt; exact H|].
    destruct (split25 k Hk) as (Ek & Hy & Hx). destruct (rho_offsets _ _ Hx Hy) as [E Ho].
    rewrite <- Ek in E. rewrite E. exact Ho.
  - apply length_tab.
  - intros x y z Hx Hy Hz. unfold step_rho. rewrite at3_tab by assumption.
    destruct (rho_offsets _ _ Hx Hy) as [-> Ho].
    rewrite ROL64_spec by (first [eapply rep_lt; exact H | lia]).
    apply (rep_at W S); auto using mod64_lt.
Qed.

Lemma pi_eq W : length W = 25 -> pi W = Ok (map (fun k => nth (5 * (k mod 5) + ((k mod 5 + 3 * (k / 5)) mod 5)) W 0%N) (seq 0 25)).
Proof. intros HL. lanes W HL. lazy -[N.lxor ROL64]. reflexivity. Qed.

Lemma pi_ok W S : rep W S -> ok (pi W) (fun W' => rep W' (step_pi S)).
Proof.
  intros H. rewrite pi_eq by apply H. cbn [ok]. apply rep_map.
  - intros k Hk. eapply rep_lt; exact H.
  - apply length_tab.
  - intros x y z Hx Hy Hz. unfold step_pi. rewrite at3_tab by assumption.
    rewrite mod5, div5 by exact Hx. apply (rep_at W S); auto using mod5_lt.
Qed.

Lemma chi_eq W : length W = 25 -> chi W = Ok (map (fun k =>
  N.lxor (nth k W 0%N) (N.land (N.lnot (nth (5 * (k / 5) + (k mod 5 + 1) mod 5) W 0%N) 64)
                               (nth (5 * (k / 5) + (k mod 5 + 2) mod 5) W 0%N))) (seq 0 25)).
Proof. intros HL. lanes W HL. lazy -[N.lxor N.land N.lnot]. reflexivity. Qed.

Lemma chi_ok W S : rep W S -> ok (chi W) (fun W' => rep W' (step_chi S)).
Proof.
  intros H. rewrite chi_eq by apply H. cbn [ok]. apply rep_map.
  - intros k Hk. apply lxor_lt; [eapply rep_lt; exact H|]. apply land_lt. eapply rep_lt; exact H.
  - apply length_tab.
  - intros x y z Hx Hy Hz. unfold step_chi. rewrite at3_tab by assumption.
    rewrite mod5, div5 by exact Hx. rewrite N.lxor_spec, N.land_spec, N.lnot_spec_low by lia.
    rewrite !(rep_at W S) by (auto using mod5_lt).
    rewrite xorb_true_r. reflexivity.
Qed.

Lemma iota_eq W i : length W = 25 -> i < 24 -> iota W i = Ok (map (fun k =>
  if k =? 0 then N.lxor (nth k W 0%N) (nth i KeccakRoundConstants 0%N) else nth k W 0%N) (seq 0 25)).
Proof.
  intros HL Hi. unfold iota. change (index 0 0) with 0.
  rewrite (rd_ok W 0 0%N), (rd_ok _ i 0%N) by (rewrite ?HL; cbn [length KeccakRoundConstants]; lia).
  cbn [bind]. generalize (nth i KeccakRoundConstants 0%N). intros c.
  lanes W HL. lazy -[N.lxor]. reflexivity.
Qed.

Lemma round_constants i z : i < 24 -> z < 64 ->
  N.testbit (nth i KeccakRoundConstants 0%N) (N.of_nat z) = RC i z.
Proof.
  intros Hi Hz.
  assert (H : forallb (fun i => forallb (fun z =>
    Bool.eqb (N.testbit (nth i KeccakRoundConstants 0%N) (N.of_nat z)) (RC i z)) (seq 0 64)) (seq 0 24) = true)
    by (vm_compute; reflexivity).
  rewrite forallb_forall in H. specialize (H i ltac:(apply in_seq; lia)).
  rewrite forallb_forall in H. specialize (H z ltac:(apply in_seq; lia)). apply eqb_prop in H. exact H.
Qed.

Lemma round_constant_lt i : (nth i KeccakRoundConstants 0 < 2 ^ 64)%N.
Proof.
  destruct (Nat.lt_ge_cases i (length KeccakRoundConstants)) as [L|L].
  - assert (H : forallb (fun c => N.ltb c (2 ^ 64)) KeccakRoundConstants = true) by (vm_compute; reflexivity).
    rewrite forallb_forall in H. apply N.ltb_lt. apply H. apply nth_In. exact L.
  - rewrite nth_overflow by exact L. reflexivity.
Qed.

Lemma iota_ok W S i : i < 24 -> rep W S -> ok (iota W i) (fun W' => rep W' (step_iota i S)).
Proof.
  intros Hi H. rewrite iota_eq by (first [apply H | exact Hi]). cbn [ok]. apply rep_map.
  - intros k Hk. destruct (k =? 0); [apply lxor_lt; [|apply round_constant_lt]|]; eapply rep_lt; exact H.
  - apply length_tab.
  - intros x y z Hx Hy Hz. unfold step_iota. rewrite at3_tab by assumption.
    destruct (Nat.eqb_spec x 0) as [->|Nx]; destruct (Nat.eqb_spec y 0) as [->|Ny]; cbn [andb];
    match goal with |- context [?k =? 0] => destruct (Nat.eqb_spec k 0); try lia end.
    + rewrite N.lxor_spec, (rep_at W S), round_constants by auto. reflexivity.
    + apply (rep_at W S); auto.
    + apply (rep_at W S); auto.
    + apply (rep_at W S); auto.
Qed.

Lemma round_ok W S i : i < 24 -> rep W S ->
  ok (KeccakP1600Round W i) (fun W' => rep W' (step_iota i (step_chi (step_pi (step_rho (step_theta S)))))).
Proof.
  intros Hi H. unfold KeccakP1600Round.
  eapply ok_step; [apply theta_ok, H|]. intros a1 H1. cbv beta in H1.
  eapply ok_step; [apply rho_ok, H1|]. intros a2 H2. cbv beta in H2.
  eapply ok_step; [apply pi_ok, H2|]. intros a3 H3. cbv beta in H3.
  eapply ok_step; [apply chi_ok, H3|]. intros a4 H4. cbv beta in H4.
  apply iota_ok; assumption.
Qed.

Lemma rounds_ok n i W S : i + n <= 24 -> rep W S ->
  ok (for_loop n i (fun i s => KeccakP1600Round s i) W) (fun W' => rep W'
    (fold_left (fun S ir => step_iota ir (step_chi (step_pi (step_rho (step_theta S))))) (seq i n) S)).
Proof.
  revert i W S. induction n as [|n IH]; intros i W S Hi H; [exact H|].
  cbn [for_loop seq fold_left]. eapply ok_step; [apply round_ok; [lia|exact H]|].
  intros W' H'. apply IH; [lia|exact H'].
Qed.

(** ** Bytes and lanes *)
Lemma length_byte_bits x : length (byte_bits x) = 8.
Proof. reflexivity. Qed.

Lemma length_bytes_bits l : length (bytes_bits l) = 8 * length l.
Proof. apply length_flat_map_const. intros a. apply length_byte_bits. Qed.

Lemma nth_bytes_bits l i j : i < length l -> j < 8 ->
  nth (8 * i + j) (bytes_bits l) false = N.testbit (nth i l 0%N) (N.of_nat j).
Proof.
  intros Hi Hj. unfold bytes_bits. rewrite nth_flat_map with (e := 0%N) by (auto using length_byte_bits).
  unfold byte_bits. rewrite nth_indep with (d' := N.testbit (nth i l 0%N) (N.of_nat 0)) by (rewrite map_length, seq_length; lia).
  rewrite (map_nth (fun j => N.testbit (nth i l 0%N) (N.of_nat j))), seq_nth by lia. reflexivity.
Qed.

Lemma words_ok st : length st = 200 -> bytes_ok st ->
  ok (fromBytesToWords st) (fun W => rep W (bytes_bits st)).
Proof.
  intros HL HB. unfold fromBytesToWords.
  eapply ok_mono; [apply (ok_mapM_seq (fun i w => (w < 2 ^ 64)%N /\
     forall k, k < 8 -> forall j, j < 8 -> N.testbit w (N.of_nat (8 * k + j)) = N.testbit (nth (8 * i + k) st 0%N) (N.of_nat j)))|].
  - intros i Hi.
    eapply ok_mono; [apply (ok_for (fun n w => (w < 2 ^ N.of_nat (8 * n))%N /\
     forall k, k < n -> forall j, j < 8 -> N.testbit w (N.of_nat (8 * k + j)) = N.testbit (nth (8 * i + k) st 0%N) (N.of_nat j)))|].
    + split; [reflexivity|intros k Hk; lia].
    + intros n w Hn [Hw H]. rewrite (rd_ok st _ 0%N) by lia. cbn [bind ok].
      assert (HBy : byte (nth (i * 8 + n) st 0%N)) by (apply bytes_ok_nth; exact HB).
      split.
      * apply testbit_low_lt. intros z Hz. rewrite N.lor_spec.
        rewrite (testbit_high w (N.of_nat (8 * n))) by (auto; lia). cbn [orb].
        rewrite N.shiftl_spec_high by lia. apply byte_high; [exact HBy|lia].
      * intros k Hk j Hj. rewrite N.lor_spec. destruct (Nat.eq_dec k n) as [->|Hkn].
        -- rewrite (testbit_high w (N.of_nat (8 * n))) by (auto; lia). cbn [orb].
           rewrite N.shiftl_spec_high by lia. rewrite (Nat.mul_comm 8 i). f_equal. lia.
        -- rewrite H by lia. rewrite N.shiftl_spec_low by lia. apply orb_false_r.
    + intros w [Hw H]. split; [exact Hw|exact H].
  - intros W [HW H]. split; [exact HW|]. split; [rewrite length_bytes_bits; lia|]. split.
    + apply Forall_forall. intros a Ha. apply In_nth with (d := 0%N) in Ha as (i & Hi & <-).
      destruct (H i _ (nth_error_nth' W i 0%N Hi)) as [B _]. exact B.
    + intros x y z Hx Hy Hz. unfold at3.
      assert (Hk : z / 8 < 8) by (apply Nat.div_lt_upper_bound; lia).
      pose proof (Nat.mod_upper_bound z 8 ltac:(lia)) as Hj.
      pose proof (Nat.div_mod z 8 ltac:(lia)) as Ez.
      destruct (H (5 * y + x) _ (nth_error_nth' W (5 * y + x) 0%N ltac:(rewrite HW; lia))) as [_ B].
      rewrite Ez at 1. rewrite B by assumption.
      replace (64 * (5 * y + x) + z) with (8 * (8 * (5 * y + x) + z / 8) + z mod 8) by lia.
      rewrite nth_bytes_bits by lia. reflexivity.
Qed.

Lemma unwords_ok W S : rep W S ->
  ok (fromWordsToBytes W) (fun st => length st = 200 /\ bytes_ok st /\ bytes_bits st = S).
Proof.
  intros HR. pose proof HR as (HL & HS & HB & H). unfold fromWordsToBytes.
  eapply ok_mono; [apply (ok_mapM_seq (fun k b => byte b /\
    forall j, j < 8 -> N.testbit b (N.of_nat j) = N.testbit (nth (k / 8) W 0%N) (N.of_nat (8 * (k mod 8) + j))))|].
  - intros k Hk. rewrite (rd_ok W _ 0%N) by (rewrite HL; apply Nat.div_lt_upper_bound; lia).
    cbn [bind ok]. split.
    + unfold byte. change 256%N with (2 ^ 8)%N. apply land_lt. reflexivity.
    + intros j Hj. rewrite N.land_spec. change 255%N with (N.ones 8). rewrite N.ones_spec_low by lia.
      rewrite andb_true_r, N.shiftr_spec by lia. f_equal. lia.
  - intros st [HW HQ]. split; [exact HW|]. split.
    + apply Forall_forall. intros a Ha. apply In_nth with (d := 0%N) in Ha as (i & Hi & <-).
      destruct (HQ i _ (nth_error_nth' st i 0%N Hi)) as [B _]. exact B.
    + apply (list_ext false); [rewrite length_bytes_bits; lia|].
      intros i Hi. rewrite length_bytes_bits, HW in Hi.
      assert (E8 : i = 8 * (i / 8) + i mod 8) by (apply Nat.div_mod; lia).
      assert (B8 : i mod 8 < 8) by (apply Nat.mod_upper_bound; lia).
      set (k := i / 8) in *. set (j := i mod 8) in *. clearbody k j. subst i.
      rewrite nth_bytes_bits by lia. destruct (HQ k _ (nth_error_nth' st k 0%N ltac:(rewrite HW; lia))) as [_ B]. rewrite Nat.add_0_l in B. rewrite B by lia.
      assert (Ek : k = 8 * (k / 8) + k mod 8) by (apply Nat.div_mod; lia).
      assert (Bk : k mod 8 < 8) by (apply Nat.mod_upper_bound; lia).
      assert (Bq : k / 8 < 25) by (apply Nat.div_lt_upper_bound; lia).
      destruct (split25 _ Bq) as (E5 & By & Bx).
      set (q := k / 8) in *. set (m := k mod 8) in *.
      rewrite E5. rewrite H by lia. unfold at3. f_equal. clearbody q m. lia.
Qed.

(** The permutation never leaves its arrays and computes Keccak-f[1600]. *)
Lemma permute_ok st : length st = 200 -> bytes_ok st ->
  ok (SnP_Permute st) (fun st' => length st' = 200 /\ bytes_ok st' /\ bytes_bits st' = keccak_f (bytes_bits st)).
Proof.
  intros HL HB. unfold SnP_Permute. eapply ok_step; [apply words_ok; assumption|].
  intros W HW. cbv beta in HW. eapply ok_step; [apply rounds_ok; [|exact HW]; lia|].
  intros W' HW'. apply unwords_ok. exact HW'.
Qed.
