(** The LowMC code computes the LowMC specification. *)

From Coq Require Import List NArith Arith Bool Btauto Lia ZifyBool ZifyNat ZifyN.
From Verif Require Import Base Params Env Spec LowMC BaseFacts ParamFacts.
Import ListNotations.

(** ** Words *)
Lemma testbit_cons b x k :
  byte b -> N.testbit (b + 2 ^ 8 * x) k = if (k <? 8)%N then N.testbit b k else N.testbit x (k - 8).
Proof.
  intros Hb. destruct (N.ltb_spec k 8).
  - rewrite <- (N.mod_pow2_bits_low (b + 2 ^ 8 * x) 8 k) by auto.
    rewrite N.mul_comm, N.mod_add by discriminate.
    rewrite N.mod_small by exact Hb. auto.
  - replace k with ((k - 8) + 8)%N at 1 by lia. rewrite <- N.div_pow2_bits.
    rewrite N.mul_comm, N.div_add by discriminate.
    rewrite N.div_small by exact Hb. f_equal.
Qed.

Definition word (b : bytes) (j : nat) : N :=
  (nth (4 * j) b 0 + 2 ^ 8 * nth (4 * j + 1) b 0
   + 2 ^ 16 * nth (4 * j + 2) b 0 + 2 ^ 24 * nth (4 * j + 3) b 0)%N.

Lemma rdw_ok b j : 4 * j + 4 <= length b -> rdw b j = Ok (word b j).
Proof.
  intros H. unfold rdw.
  rewrite !(rd_ok b _ 0%N) by lia. reflexivity.
Qed.

Lemma testbit_word b j i :
  bytes_ok b -> i < 32 ->
  N.testbit (word b j) (N.of_nat i) = bit b (32 * j + (8 * (i / 8) + (7 - i mod 8))).
Proof.
  intros Hb Hi.
  assert (Hw : word b j = (nth (4 * j) b 0 + 2 ^ 8 * (nth (4 * j + 1) b 0
     + 2 ^ 8 * (nth (4 * j + 2) b 0 + 2 ^ 8 * nth (4 * j + 3) b 0)))%N).
  { unfold word. change (2 ^ 24)%N with (2 ^ 8 * (2 ^ 8 * 2 ^ 8))%N.
    change (2 ^ 16)%N with (2 ^ 8 * 2 ^ 8)%N. lia. }
  rewrite Hw. rewrite !testbit_cons by (apply bytes_ok_nth; auto).
  unfold bit.
  assert (Hq : i / 8 = 0 \/ i / 8 = 1 \/ i / 8 = 2 \/ i / 8 = 3).
  { pose proof (lt_div8 i 4 ltac:(lia)). lia. }
  pose proof (Nat.div_mod i 8 ltac:(lia)) as Hd. pose proof (mod8_lt i) as Hm.
  set (r := i mod 8) in *.
  replace ((32 * j + (8 * (i / 8) + (7 - r))) / 8) with (4 * j + i / 8).
  2:{ replace (32 * j + (8 * (i / 8) + (7 - r))) with ((4 * j + i / 8) * 8 + (7 - r)) by lia.
      rewrite Nat.div_add_l by lia. rewrite (Nat.div_small (7 - r)); lia. }
  replace ((32 * j + (8 * (i / 8) + (7 - r))) mod 8) with (7 - r).
  2:{ replace (32 * j + (8 * (i / 8) + (7 - r))) with ((7 - r) + (4 * j + i / 8) * 8) by lia.
      rewrite Nat.mod_add by lia. rewrite (Nat.mod_small (7 - r)); lia. }
  replace (7 - (7 - r)) with r by lia.
  destruct Hq as [Hq|[Hq|[Hq|Hq]]]; rewrite Hq in *;
    repeat match goal with
           | |- context [(?a <? 8)%N] => destruct (N.ltb_spec a 8); try lia
           end; rewrite ?Nat.add_0_r; f_equal; lia.
Qed.

Lemma xsum32_perm g : xsum 32 (fun i => g (8 * (i / 8) + (7 - i mod 8))) = xsum 32 g.
Proof. cbv -[xorb]. btauto. Qed.

Lemma parity_land_words a b j k :
  bytes_ok a -> bytes_ok b ->
  xsum 32 (fun i => N.testbit (N.land (word a j) (word b k)) (N.of_nat i))
  = xsum 32 (fun i => bit a (32 * j + i) && bit b (32 * k + i)).
Proof.
  intros Ha Hb. rewrite <- (xsum32_perm (fun i => bit a (32 * j + i) && bit b (32 * k + i))).
  apply xsum_ext. intros i Hi. rewrite N.land_spec, !testbit_word by auto. reflexivity.
Qed.

(** ** matrix_mul *)
Lemma xsum_mul32 n f :
  xsum (32 * n) f = xsum n (fun j => xsum 32 (fun i => f (32 * j + i))).
Proof.
  induction n as [|n IH].
  - replace (32 * 0) with 0 by lia. reflexivity.
  - replace (32 * S n) with (32 * n + 32) by lia. rewrite xsum_add, IH. reflexivity.
Qed.

Lemma testbit_b2n_xsum x :
  xsum 32 (fun i => N.testbit (b2n x) (N.of_nat i)) = x.
Proof.
  rewrite (xsum_single 32 0) by (intros; rewrite ?testbit_b2n;
    try (destruct x; simpl; auto; destruct (N.eqb_spec (N.of_nat i) 0); auto; lia); lia).
  rewrite testbit_b2n. destruct x; auto.
Qed.

(** ** Specification-level lemmas *)
Lemma matvec_ext n M u v i : veq n u v -> matvec n M u i = matvec n M v i.
Proof. intros H. apply xsum_ext. intros j Hj. rewrite H by auto. reflexivity. Qed.

Lemma div3_spec i : 3 * (i / 3) <= i < 3 * (i / 3) + 3.
Proof.
  pose proof (Nat.div_mod i 3 ltac:(lia)). pose proof (Nat.mod_upper_bound i 3 ltac:(lia)). lia.
Qed.

Lemma sbox_layer_ext n m u v i :
  veq n u v -> 3 * m <= n -> i < n -> sbox_layer m u i = sbox_layer m v i.
Proof.
  intros H Hm Hi. unfold sbox_layer.
  destruct (Nat.ltb_spec i (3 * m)); [|apply H; auto].
  pose proof (div3_spec i). rewrite !H by lia. reflexivity.
Qed.

Lemma sbox_index i k :
  (exists x, x < 3 /\ i = 3 * k + x) \/ (i < 3 * k \/ 3 * k + 3 <= i).
Proof.
  destruct (Nat.lt_ge_cases i (3 * k)); [auto|].
  destruct (Nat.lt_ge_cases i (3 * k + 3)); [|auto].
  left. exists (i - 3 * k). lia.
Qed.

Section S.
Variable E : env.
Variable P : paramset.
Hypothesis HP : wfP P.

Let n := stateSizeBits P.
Let W := stateSizeWords P.

Lemma matrix_mul_row_spec st M i :
  bytes_ok st -> bytes_ok M ->
  n <= 8 * length st -> length M = n * (4 * W) -> i < n ->
  ok (matrix_mul_row P st M i)
     (fun p => parity32 p = matvec n (mat_of_bytes W M) (bit st) i).
Proof.
  intros Hst HM Hls HlM Hi. unfold matrix_mul_row. fold n W.
  destruct HP as [Hn0 HsB HW1 HW2 HW3 HW0 Hr0 Hm3 Hm0 HaB]. fold n in Hn0, HW1, HW2, Hm3. fold W in HW1, HW2, HW3, HW0.
  pose (ww := n / 32). change WORD_SIZE_BITS with 32. fold ww.
  assert (Hww : 32 * ww <= n < 32 * ww + 32).
  { unfold ww. pose proof (Nat.div_mod n 32 ltac:(lia)).
    pose proof (Nat.mod_upper_bound n 32 ltac:(lia)). lia. }
  assert (Hrow : (i + 1) * (4 * W) <= length M).
  { rewrite HlM. apply Nat.mul_le_mono_r. lia. }
  pose (f := fun j => bit M (32 * W * i + j) && bit st j).
  eapply ok_step.
  - apply ok_for with (I := fun j (p : N) =>
      xsum 32 (fun k => N.testbit p (N.of_nat k)) = xsum (32 * j) f).
    + replace (32 * 0) with 0 by lia. apply xsum_false.
    + intros j p Hj Hp.
      rewrite rdw_ok by lia. simpl bind.
      rewrite rdw_ok by nia. simpl.
      rewrite (xsum_ext 32 _ (fun k => xorb (N.testbit p (N.of_nat k))
         (N.testbit (N.land (word st j) (word M (i * W + j))) (N.of_nat k))))
        by (intros; apply N.lxor_spec).
      rewrite xsum_xorb, Hp, parity_land_words by auto.
      replace (32 * S j) with (32 * j + 32) by lia. rewrite xsum_add. f_equal.
      apply xsum_ext. intros k Hk. unfold f. rewrite andb_comm. f_equal. f_equal. nia.
  - cbv beta. intros p Hp. eapply ok_mono.
    + apply ok_for with (I := fun j (p : N) =>
        xsum 32 (fun k => N.testbit p (N.of_nat k)) = xsum j f).
      * replace (ww * 32) with (32 * ww) by lia. exact Hp.
      * intros j q Hj Hq.
        rewrite getBit_ok by (apply lt_div8; lia). simpl bind.
        rewrite getBit_ok by (apply lt_div8; nia). simpl.
        rewrite (xsum_ext 32 _ (fun k => xorb (N.testbit q (N.of_nat k))
           (N.testbit (b2n (bit st j && bit M (i * W * 32 + j))) (N.of_nat k))))
          by (intros; apply N.lxor_spec).
        rewrite xsum_xorb, Hq, testbit_b2n_xsum. f_equal.
        unfold f. rewrite andb_comm. replace (i * W * 32 + j) with (32 * W * i + j) by ring. reflexivity.
    + intros q Hq. rewrite parity32_spec, Hq.
      replace (ww * 32 + (n - ww * 32)) with n by lia. reflexivity.
Qed.

Lemma matrix_mul_spec out st M :
  env_bytes_ok E ->
  bytes_ok st -> bytes_ok M ->
  n <= 8 * length st -> length M = n * (4 * W) -> 4 * W <= length out ->
  ok (matrix_mul E P out st M)
     (fun o => length o = length out
        /\ (bytes_ok out -> bytes_ok o)
        /\ (forall i, bit o i = if i <? n then matvec n (mat_of_bytes W M) (bit st) i
                                else if i <? 32 * W then false else bit out i)).
Proof.
  intros [_ HU] Hst HM Hls HlM Hlo. unfold matrix_mul. fold n W.
  destruct HP as [Hn0 HsB HW1 HW2 HW3 HW0 Hr0 Hm3 Hm0 HaB]. fold n in Hn0, HW1, HW2, Hm3. fold W in HW1, HW2, HW3, HW0.
  destruct (HU site_matrix_mul_temp 0 LOWMC_MAX_STATE_BYTES) as [HUl HUb].
  set (tmp := uninit E site_matrix_mul_temp 0 LOWMC_MAX_STATE_BYTES) in *.
  unfold LOWMC_MAX_STATE_BYTES in HUl.
  rewrite blit_ok by (rewrite length_zeros; lia). simpl bind.
  set (t0 := blit_list _ _ _).
  assert (Ht0l : length t0 = 64).
  { unfold t0. rewrite length_blit_list; auto. rewrite length_zeros. lia. }
  assert (Ht0b : bytes_ok t0) by (apply bytes_ok_blit; auto; apply bytes_ok_zeros).
  assert (Ht0z : forall i, n <= i < 32 * W -> bit t0 i = false).
  { intros i Hi. unfold bit, t0. rewrite nth_blit_list by (rewrite length_zeros; lia).
    rewrite length_zeros.
    assert (4 * (W - 1) <= i / 8 < 4 * (W - 1) + 4).
    { split; [apply Nat.div_le_lower_bound; lia| apply Nat.div_lt_upper_bound; lia]. }
    replace ((4 * (W - 1) <=? i / 8) && (i / 8 <? 4 * (W - 1) + 4)) with true by lia.
    rewrite nth_zeros. apply N.bits_0. }
  eapply ok_step.
  - apply ok_for with (I := fun i t => length t = 64 /\ bytes_ok t
      /\ (forall j, j < i -> bit t j = matvec n (mat_of_bytes W M) (bit st) j)
      /\ (forall j, i <= j -> bit t j = bit t0 j)).
    + repeat split; auto. intros; lia.
    + intros i t Hi (Hl & Hb & H1 & H2).
      eapply ok_step; [apply matrix_mul_row_spec; auto; lia|]. intros p Hp. cbv beta in Hp.
      rewrite setBit_ok by (apply lt_div8; lia). simpl. rewrite Hp.
      split; [rewrite length_set_bit; auto|].
      split; [apply bytes_ok_set_bit; auto|].
      split; intros j Hj; rewrite bit_set_bit by (apply lt_div8; lia).
      * destruct (Nat.eqb_spec j i); [subst; auto|apply H1; lia].
      * destruct (Nat.eqb_spec j i); [lia|apply H2; lia].
  - cbv beta. intros t (Hl & Hb & H1 & H2).
    rewrite slice0_ok by lia. simpl bind.
    rewrite blit_ok by (rewrite firstn_length; lia). simpl.
    assert (Hfl : length (firstn (W * 4) t) = W * 4) by (rewrite firstn_length; lia).
    split; [apply length_blit_list; lia|].
    split; [intros; apply bytes_ok_blit; auto; apply Forall_firstn; auto|].
    intros i. rewrite bit_blit0 by lia. rewrite Hfl.
    replace (8 * (W * 4)) with (32 * W) by lia.
    destruct (Nat.ltb_spec i (32 * W)); destruct (Nat.ltb_spec i n); try lia; auto.
    + rewrite bit_firstn by lia. apply H1; lia.
    + rewrite bit_firstn by lia. rewrite H2 by lia. apply Ht0z; lia.
Qed.

Lemma substitution_spec_gen st :
  3 * numSboxes P <= 8 * length st ->
  ok (substitution P st)
     (fun o => length o = length st /\ (bytes_ok st -> bytes_ok o)
        /\ (forall i, bit o i = sbox_layer (numSboxes P) (bit st) i)).
Proof.
  intros Hl. unfold substitution.
  apply ok_for with (I := fun k o => length o = length st /\ (bytes_ok st -> bytes_ok o)
        /\ (forall i, bit o i = sbox_layer k (bit st) i)).
  - repeat split; auto.
  - intros k o Hk (Hol & Hob & H).
    rewrite !getBit_ok by (apply lt_div8; lia). simpl bind.
    rewrite setBit_ok by (apply lt_div8; lia). simpl bind.
    rewrite setBit_ok by (rewrite length_set_bit; apply lt_div8; lia). simpl bind.
    rewrite setBit_ok by (rewrite !length_set_bit; apply lt_div8; lia). simpl ok.
    rewrite !length_set_bit. split; auto.
    split; [intros; repeat apply bytes_ok_set_bit; auto|].
    intros i.
    rewrite !bit_set_bit by (rewrite ?length_set_bit; apply lt_div8; lia).
    rewrite !H.
    assert (Ho : forall j, 3 * k <= j -> sbox_layer k (bit st) j = bit st j).
    { intros j Hj. unfold sbox_layer. replace (j <? 3 * k) with false by lia. auto. }
    rewrite !Ho by lia. replace (3 * k) with (3 * k + 0) by lia.
    destruct (sbox_index i k) as [[x [Hx ->]]|Hne].
    + unfold sbox_layer.
      replace ((3 * k + x) / 3) with k
        by (rewrite Nat.mul_comm, Nat.div_add_l, (Nat.div_small x) by lia; lia).
      replace ((3 * k + x) mod 3) with x
        by (rewrite Nat.add_comm, Nat.mul_comm, Nat.mod_add, Nat.mod_small by lia; lia).
      replace (3 * k + x <? 3 * S k) with true by lia.
      rewrite !Nat.add_0_r.
      destruct x as [|[|[|x]]]; try lia;
        repeat match goal with
               | |- context [?a =? ?b] =>
                   destruct (Nat.eqb_spec a b); try lia
               end; reflexivity.
    + repeat match goal with
             | |- context [?a =? ?b] => destruct (Nat.eqb_spec a b); try lia
             end.
      unfold sbox_layer. destruct (Nat.ltb_spec i (3 * k)); destruct (Nat.ltb_spec i (3 * S k));
        auto; lia.
Qed.

Lemma LowMCEnc_spec pt out key :
  env_bytes_ok E -> constants_ok E P ->
  bytes_ok pt -> bytes_ok key -> bytes_ok out ->
  n <= 8 * length key -> 4 * W <= length pt -> 4 * W <= length out ->
  ok (LowMCEnc E P pt out key)
     (fun o => length o = length out /\ bytes_ok o
        /\ (forall i, bit o i = if i <? n then lowmc_enc (lowmc_of E P) (bit key) (bit pt) i
                                else if i <? 32 * W then false else bit out i)).
Proof.
  intros HE (HK & HL & HC) Hpt Hkey Hout Hlk Hlp Hlo. unfold LowMCEnc.
  destruct HP as [Hn0 HsB HW1 HW2 HW3 HW0 Hr0 Hm3 Hm0 HaB]. fold n in Hn0, HW1, HW2, Hm3. fold W in HW1, HW2, HW3, HW0.
  pose proof HE as [_ HU].
  destruct (HU site_LowMCEnc_roundKey 0 LOWMC_MAX_STATE_BYTES) as [HUl HUb].
  set (rk := uninit E site_LowMCEnc_roundKey 0 LOWMC_MAX_STATE_BYTES) in *.
  unfold LOWMC_MAX_STATE_BYTES in HUl. fold W.
  rewrite slice0_ok by lia. simpl bind.
  assert (Hfl : length (firstn (W * 4) pt) = W * 4) by (rewrite firstn_length; lia).
  rewrite blit_ok by lia. simpl bind.
  set (o0 := blit_list _ _ _).
  assert (Ho0l : length o0 = length out) by (apply length_blit_list; lia).
  assert (Ho0b : bytes_ok o0) by (apply bytes_ok_blit; auto; apply Forall_firstn; auto).
  assert (Ho0 : forall i, bit o0 i = if i <? 32 * W then bit pt i else bit out i).
  { intros i. unfold o0. rewrite bit_blit0 by lia. rewrite Hfl.
    replace (8 * (W * 4)) with (32 * W) by lia.
    destruct (Nat.ltb_spec i (32 * W)); auto. apply bit_firstn; lia. }
  destruct (HK 0 ltac:(lia)) as [HK0l HK0b].
  eapply ok_step; [apply matrix_mul_spec; auto; lia|].
  intros rk1 (Hrk1l & Hrk1b & Hrk1). specialize (Hrk1b HUb).
  eapply ok_step; [apply xor_array_spec; lia|].
  intros o1 (Ho1l & Ho1b & Ho1).
  eapply ok_step.
  - apply ok_for with (I := fun r '(o, rk) =>
      length rk = 64 /\ bytes_ok rk /\ length o = length out /\ bytes_ok o /\
      (forall i, i < n -> bit o i = lowmc_state (lowmc_of E P) (bit key) (bit pt) (r - 1) i) /\
      (forall i, n <= i < 32 * W -> 1 < r -> bit o i = false) /\
      (forall i, 32 * W <= i -> bit o i = bit out i)).
    + split; [lia|]. split; auto. split; [lia|]. split; [apply Ho1b; auto|].
      split; [|split; [lia|]]; intros i Hi; rewrite Ho1, !Ho0.
      * replace (i <? 32 * W) with true by lia. rewrite Hrk1.
        replace (i <? n) with true by lia. reflexivity.
      * replace (i <? 32 * W) with false by lia. reflexivity.
    + intros r [o rk'] Hr (Hrkl & Hrkb & Hol & Hob & H1 & H2 & H3).
      destruct (HK r ltac:(lia)) as [HKl HKb].
      destruct (HL (r - 1) ltac:(lia)) as [HLl HLb].
      destruct (HC (r - 1) ltac:(lia)) as (HCl & HCb & HCz).
      eapply ok_step; [apply matrix_mul_spec; auto; lia|].
      intros rk2 (Hrk2l & Hrk2b & Hrk2). specialize (Hrk2b Hrkb).
      eapply ok_step; [apply substitution_spec_gen; lia|].
      intros o2 (Ho2l & Ho2b & Ho2). specialize (Ho2b Hob).
      eapply ok_step; [apply matrix_mul_spec; auto; lia|].
      intros o3 (Ho3l & Ho3b & Ho3). specialize (Ho3b Ho2b).
      eapply ok_step; [apply xor_array_spec; lia|].
      intros o4 (Ho4l & Ho4b & Ho4). specialize (Ho4b Ho3b Ho3b HCb).
      eapply ok_step; [apply xor_array_spec; lia|].
      intros o5 (Ho5l & Ho5b & Ho5). specialize (Ho5b Ho4b Ho4b Hrk2b).
      simpl ok.
      split; [lia|]. split; auto. split; [lia|]. split; auto.
      split; [|split]; intros i Hi; rewrite Ho5, ?Ho4, ?Ho3, ?Hrk2.
      * replace (i <? 32 * W) with true by lia. replace (i <? n) with true by lia.
        replace (S r - 1) with (S (r - 1)) by lia. simpl. unfold vxor.
        replace (S (r - 1)) with r by lia. fold n W. f_equal. f_equal.
        apply matvec_ext. intros j Hj. rewrite Ho2. apply (sbox_layer_ext n); auto.
      * intros _. replace (i <? 32 * W) with true by lia. replace (i <? n) with false by lia.
        rewrite HCz by (fold n; lia). reflexivity.
      * replace (i <? 32 * W) with false by lia. replace (i <? n) with false by lia.
        rewrite Ho2. unfold sbox_layer. replace (i <? 3 * numSboxes P) with false by lia.
        apply H3; lia.
  - intros [o rk'] (_ & _ & Hol & Hob & H1 & H2 & H3). simpl.
    split; auto. split; auto. intros i.
    destruct (Nat.ltb_spec i n).
    + replace (1 + numRounds P - 1) with (numRounds P) in H1 by lia. apply H1; auto.
    + destruct (Nat.ltb_spec i (32 * W)); [apply H2|apply H3]; lia.
Qed.

End S.

Lemma LowMCEnc_ex E P : wfP P -> forall pt out key,
  env_bytes_ok E -> constants_ok E P ->
  bytes_ok pt -> bytes_ok key -> bytes_ok out ->
  stateSizeBits P <= 8 * length key -> 4 * stateSizeWords P <= length pt ->
  4 * stateSizeWords P <= length out ->
  exists o, LowMCEnc E P pt out key = Ok o /\ length o = length out /\ bytes_ok o
    /\ forall i, bit o i =
         if i <? stateSizeBits P then lowmc_enc (lowmc_of E P) (bit key) (bit pt) i
         else if i <? 32 * stateSizeWords P then false else bit out i.
Proof.
  intros. apply (proj1 (ok_ex _ _)). apply LowMCEnc_spec; auto.
Qed.
