(** Random tapes of Picnic3: words, parity bits, and the auxiliary bits of the last party. *)

From Coq Require Import List NArith Arith Bool Btauto Lia ZifyBool ZifyNat ZifyN.
From Verif Require Import Base Params Env Spec LowMC Picnic3 BaseFacts ParamFacts LowMCFacts
  LowMCInj UtilFacts Hint ZkbMpc ZkbChal.
Import ListNotations.

(** What the Picnic3 code relies on. *)
Record wfP3 (P : paramset) : Prop := {
  w3_wfP : wfP P;
  w3_N : numMPCParties P = 16;
  w3_m : 3 * numSboxes P = stateSizeBits P;
  w3_u : 0 < numOpenedRounds P < numMPCRounds P;
  w3_T : numMPCRounds P <= 1024;
  w3_dg : 32 <= digestSizeBytes P <= 64;
  w3_sd : 0 < seedSizeBytes P <= 32;
  w3_sd2 : 2 * seedSizeBytes P <= 64;
  w3_aB : andSizeBytes P <= 176;
  w3_salt : saltSizeBytes P = 32
}.

Definition wfP3_b (P : paramset) : bool :=
  (numMPCParties P =? 16) && (3 * numSboxes P =? stateSizeBits P)
  && (0 <? numOpenedRounds P) && (numOpenedRounds P <? numMPCRounds P)
  && (numMPCRounds P <=? 1024) && (32 <=? digestSizeBytes P) && (digestSizeBytes P <=? 64)
  && (0 <? seedSizeBytes P) && (seedSizeBytes P <=? 32) && (2 * seedSizeBytes P <=? 64)
  && (andSizeBytes P <=? 176) && (saltSizeBytes P =? 32).

Lemma get_param_set_wfP3 p P : get_param_set p = Some P -> is_picnic3 p = true -> wfP3 P.
Proof.
  intros H Hp. pose proof (get_param_set_wfP p P H) as Hw.
  assert (Hb : (negb (is_picnic3 p) || wfP3_b P) = true).
  { revert p P H Hp Hw.
    enough (forall p P, get_param_set p = Some P -> (negb (is_picnic3 p) || wfP3_b P) = true) by eauto.
    apply (params_forall (fun p P => negb (is_picnic3 p) || wfP3_b P)). vm_compute. reflexivity. }
  rewrite Hp in Hb. simpl in Hb. unfold wfP3_b in Hb.
  constructor; auto; lia.
Qed.

(** lia after dropping hypotheses that only slow it down. *)
Ltac zlia :=
  repeat match goal with
         | H : @eq bool _ _ |- _ => clear H
         | H : forall _, _ |- _ => clear H
         | x : bool |- _ => clear x
         end; lia.

Local Opaque pack.

(** ** 16-bit words *)
Definition w16 (f : nat -> bool) : N := (nth 0 (pack 2 f) 0 + 256 * nth 1 (pack 2 f) 0)%N.

Lemma two_bytes (b : bytes) : length b = 2 -> b = [nth 0 b 0%N; nth 1 b 0%N].
Proof. destruct b as [|x [|y [|z b]]]; try discriminate. reflexivity. Qed.

Lemma w16_bytes_val b0 b1 : byte b0 -> byte b1 -> w16_bytes (b0 + 256 * b1)%N = [b0; b1].
Proof.
  intros H0 H1. unfold w16_bytes, byte in *.
  assert (E1 : ((b0 + 256 * b1) mod 256 = b0)%N).
  { rewrite N.mul_comm, N.mod_add by discriminate. apply N.mod_small; auto. }
  assert (E2 : ((b0 + 256 * b1) / 256 = b1)%N).
  { rewrite N.mul_comm, N.div_add by discriminate. rewrite N.div_small by auto. lia. }
  rewrite E1, E2, N.mod_small by auto. reflexivity.
Qed.

Lemma bytes_w16_ok (b : bytes) : length b = 2 -> bytes_w16 b = Ok (nth 0 b 0 + 256 * nth 1 b 0)%N.
Proof. intros H. unfold bytes_w16. rewrite !(rd_ok b _ 0%N) by lia. reflexivity. Qed.

Lemma w16_pack f : w16_bytes (w16 f) = pack 2 f.
Proof.
  destruct (pack_spec 2 f) as (H1 & H2 & _). unfold w16.
  rewrite w16_bytes_val by (apply bytes_ok_nth; auto). symmetry. apply two_bytes; auto.
Qed.

(** Bit [i] of a word as the code numbers them. *)
Definition wbit (w : N) (i : nat) : bool := bit (w16_bytes w) i.

Lemma length_w16_bytes w : length (w16_bytes w) = 2.
Proof. reflexivity. Qed.

Lemma bytes_ok_w16 w : bytes_ok (w16_bytes w).
Proof. repeat constructor; unfold byte; apply N.mod_upper_bound; discriminate. Qed.

Lemma wbit_w16 f i : i < 16 -> wbit (w16 f) i = f i.
Proof.
  intros H. unfold wbit. rewrite w16_pack. destruct (pack_spec 2 f) as (_ & _ & H3).
  rewrite H3. replace (i <? 8 * 2) with true by lia. auto.
Qed.

Lemma wbit_testbit w i : i < 16 ->
  wbit w i = N.testbit w (N.of_nat (8 * (i / 8) + (7 - i mod 8))).
Proof.
  intros H. unfold wbit, bit, w16_bytes.
  pose proof (lt_div8 i 2 H). pose proof (mod8_lt i).
  assert (Hq : i / 8 = 0 \/ i / 8 = 1) by lia.
  destruct Hq as [-> | ->]; cbn [nth]; rewrite testbit_mod256 by lia.
  - f_equal; lia.
  - change 256%N with (2 ^ 8)%N. rewrite <- N.shiftr_div_pow2, N.shiftr_spec by lia. f_equal; lia.
Qed.

Lemma wbit_lxor x y i : i < 16 -> wbit (N.lxor x y) i = xorb (wbit x i) (wbit y i).
Proof. intros H. rewrite !wbit_testbit by auto. apply N.lxor_spec. Qed.

Lemma wbit_land x y i : i < 16 -> wbit (N.land x y) i = wbit x i && wbit y i.
Proof. intros H. rewrite !wbit_testbit by auto. apply N.land_spec. Qed.

Lemma wbit_extend b i : i < 16 -> wbit (extend b) i = b.
Proof.
  intros H. rewrite wbit_testbit by auto. unfold extend. destruct b; [|apply N.bits_0].
  change 65535%N with (N.ones 16). apply N.ones_spec_low.
  pose proof (lt_div8 i 2 H). pose proof (mod8_lt i). lia.
Qed.

Lemma parity16_wbit w : parity16 w = xsum 16 (wbit w).
Proof.
  rewrite parity16_spec.
  transitivity (xsum 16 (fun i => N.testbit w (N.of_nat (8 * (i / 8) + (7 - i mod 8))))).
  - generalize (N.testbit w) as f. intros f. cbv -[xorb]. btauto.
  - apply xsum_ext. intros i Hi. symmetry. apply wbit_testbit; auto.
Qed.

Lemma parity16_w16 f : parity16 (w16 f) = xsum 16 f.
Proof. rewrite parity16_wbit. apply xsum_ext. intros. apply wbit_w16; auto. Qed.

Lemma w16_ext f g : (forall i, i < 16 -> f i = g i) -> w16 f = w16 g.
Proof.
  intros H. unfold w16. replace (pack 2 g) with (pack 2 f); auto.
  destruct (pack_spec 2 f) as (H1 & H2 & H3). apply pack_unique; auto.
  intros k Hk. rewrite H3. replace (k <? 8 * 2) with true by lia. apply H. lia.
Qed.

(** ** Tapes *)
Definition tbit (tl : list bytes) (i p : nat) : bool := bit (nth i tl []) p.

(** [k] byte strings of [len] bytes. *)
Definition rows (k len : nat) (tl : list bytes) : Prop :=
  length tl = k /\ forall i, i < k -> length (nth i tl []) = len /\ bytes_ok (nth i tl []).

Lemma rows_ext k len tl tl' : rows k len tl -> rows k len tl' ->
  (forall i p, i < k -> p < 8 * len -> tbit tl i p = tbit tl' i p) -> tl = tl'.
Proof.
  intros [H1 H2] [H3 H4] H. apply list_ext with ([] : bytes); [congruence|].
  intros i Hi. destruct (H2 i) as [L1 B1]; [lia|]. destruct (H4 i) as [L2 B2]; [lia|].
  apply bits_ext; auto; [congruence|]. intros p Hp. apply H; lia.
Qed.

Lemma rows_set k len tl j (b : bytes) : rows k len tl -> j < k -> length b = len -> bytes_ok b ->
  rows k len (list_set tl j b).
Proof.
  intros [H1 H2] Hj Hb Ho. split; [rewrite length_list_set; auto|].
  intros i Hi. rewrite nth_list_set by lia. destruct (i =? j); auto.
Qed.

Section T.
Variable E : env.
Variable P : paramset.
Hypothesis HP3 : wfP3 P.
Hypothesis HE : env_bytes_ok E.

Let n := stateSizeBits P.
Let m := numSboxes P.
Let R := numRounds P.
Let tS := p3_tapeSize P.

Lemma tapesToWord_ok tl pos :
  rows 16 tS tl -> pos < 8 * tS ->
  tapesToWord E (mkTapes tl pos) = Ok (w16 (fun i => tbit tl i pos), mkTapes tl (S pos)).
Proof.
  intros [Hl Ht] Hp. unfold tapesToWord. cbn [tp_tape tp_pos].
  destruct HE as [_ HU]. destruct (HU site_tapesToWord 0 2) as [Ul Ub].
  assert (Hloop : ok (for_loop 16 0 (fun i sh => t <- rd tl i;; b <- getBit t pos;; setBit sh i b)
      (uninit E site_tapesToWord 0 2))
    (fun sh => length sh = 2 /\ bytes_ok sh /\ forall k, k < 16 -> bit sh k = tbit tl k pos)).
  { apply ok_for with (I := fun i sh => length sh = 2 /\ bytes_ok sh /\
                                        forall k, k < i -> bit sh k = tbit tl k pos).
    - split; [auto|split; [auto|]]. intros; lia.
    - intros i sh Hi (H1 & H2 & H3). destruct (Ht i) as [L B]; [lia|].
      rewrite (rd_ok tl i []) by lia. cbn [bind].
      rewrite getBit_ok by (apply lt_div8; lia). cbn [bind].
      rewrite setBit_ok by (apply lt_div8; lia). cbn [ok].
      split; [rewrite length_set_bit; auto|]. split; [apply bytes_ok_set_bit; auto|].
      intros k Hk. rewrite bit_set_bit by (apply lt_div8; lia).
      destruct (Nat.eqb_spec k i) as [He|He]; [subst; reflexivity|]. apply H3. lia. }
  apply ok_ex in Hloop. destruct Hloop as (sh & -> & H1 & H2 & H3). cbn [bind].
  rewrite bytes_w16_ok by auto. cbn [bind].
  assert (Hsh : sh = pack 2 (fun i => tbit tl i pos)) by (apply pack_unique; auto).
  subst sh. unfold w16. reflexivity.
Qed.

Lemma tapesToWords_ok k : forall tl pos,
  rows 16 tS tl -> pos + k <= 8 * tS ->
  tapesToWords E k (mkTapes tl pos) =
  Ok (map (fun q => w16 (fun i => tbit tl i (pos + q))) (seq 0 k), mkTapes tl (pos + k)).
Proof.
  induction k as [|k IH]; intros tl pos Ht Hp; cbn [tapesToWords seq map].
  - rewrite Nat.add_0_r. auto.
  - rewrite tapesToWord_ok by (auto; lia). cbn [bind]. rewrite IH by (auto; lia). cbn [bind].
    rewrite Nat.add_0_r. f_equal. f_equal.
    + f_equal. rewrite <- seq_shift, map_map. apply map_ext. intros q. apply w16_ext.
      intros i Hi. f_equal. lia.
    + f_equal. lia.
Qed.

(** The parity of all tapes at a position. *)
Definition tpar (tl : list bytes) (p : nat) : bool := xsum 16 (fun i => tbit tl i p).

Lemma tapesToParityBits_ok out k tl pos :
  rows 16 tS tl -> pos + k <= 8 * tS -> k <= 8 * length out -> bytes_ok out ->
  ok (tapesToParityBits E out k (mkTapes tl pos))
     (fun r => snd r = mkTapes tl (pos + k) /\ length (fst r) = length out /\ bytes_ok (fst r) /\
               forall i, bit (fst r) i = if i <? k then tpar tl (pos + i) else bit out i).
Proof.
  intros Ht Hp Hk Ho. unfold tapesToParityBits.
  eapply ok_mono.
  - apply ok_for with (I := fun i (r : bytes * tapes_t) =>
      snd r = mkTapes tl (pos + i) /\ length (fst r) = length out /\ bytes_ok (fst r) /\
      forall j, bit (fst r) j = if j <? i then tpar tl (pos + j) else bit out j).
    + cbn [fst snd]. rewrite Nat.add_0_r. auto.
    + intros i [o tp] Hi (H1 & H2 & H3 & H4). cbn [fst snd] in *. subst tp.
      rewrite tapesToWord_ok by (auto; lia). cbn [bind].
      rewrite setBit_ok by (apply lt_div8; lia). cbn [bind ok fst snd].
      split; [f_equal; lia|]. split; [rewrite length_set_bit; auto|].
      split; [apply bytes_ok_set_bit; auto|].
      intros j. rewrite bit_set_bit by (apply lt_div8; lia).
      destruct (Nat.eqb_spec j i) as [He|He].
      * subst. replace (i <? S i) with true by lia. rewrite parity16_w16. reflexivity.
      * rewrite H4. destruct (Nat.ltb_spec j i); destruct (Nat.ltb_spec j (S i)); auto; lia.
  - intros [o tp]. rewrite Nat.add_0_l. auto.
Qed.

(** ** The auxiliary bits *)

(** The new bit of the last party: parity of all tapes becomes [v]. *)
Definition fix_bit (tl : list bytes) (p : nat) (v : bool) : list bytes :=
  list_set tl 15 (set_bit (nth 15 tl []) p (xorb v (xsum 15 (fun i => tbit tl i p)))).

Lemma fix_bit_spec tl p v : rows 16 tS tl -> p < 8 * tS ->
  rows 16 tS (fix_bit tl p v) /\
  (forall i q, i < 16 -> tbit (fix_bit tl p v) i q =
     if (i =? 15) && (q =? p) then xorb v (xsum 15 (fun i => tbit tl i p)) else tbit tl i q).
Proof.
  intros Ht Hp. destruct Ht as [Hl Ht]. destruct (Ht 15) as [L B]; [lia|].
  split.
  - apply rows_set; [split; auto|lia|rewrite length_set_bit; auto|apply bytes_ok_set_bit; auto].
  - intros i q Hi. unfold tbit at 1, fix_bit. rewrite nth_list_set by lia.
    destruct (Nat.eqb_spec i 15) as [He|He]; cbn [andb]; [|reflexivity].
    rewrite bit_set_bit by (apply lt_div8; lia). subst. reflexivity.
Qed.

Lemma fix_bit_par tl p v q : rows 16 tS tl -> p < 8 * tS ->
  tpar (fix_bit tl p v) q = if q =? p then v else tpar tl q.
Proof.
  intros Ht Hp. destruct (fix_bit_spec tl p v Ht Hp) as [_ H]. unfold tpar.
  change (xsum 16 (fun i => tbit (fix_bit tl p v) i q)) with
    (xorb (xsum 15 (fun i => tbit (fix_bit tl p v) i q)) (tbit (fix_bit tl p v) 15 q)).
  change (xsum 16 (fun i => tbit tl i q)) with (xorb (xsum 15 (fun i => tbit tl i q)) (tbit tl 15 q)).
  rewrite (xsum_ext 15 _ (fun i => tbit tl i q)).
  2:{ intros i Hi. rewrite H by lia. replace (i =? 15) with false by lia. reflexivity. }
  rewrite H by lia. cbn [Nat.eqb andb]. destruct (Nat.eqb_spec q p) as [->|]; auto.
  generalize (xsum 15 (fun i => tbit tl i p)). intros b. btauto.
Qed.

Lemma aux_mpc_AND_ok a b f tl pos :
  rows 16 tS tl -> pos < 8 * tS ->
  aux_mpc_AND E P a b f (mkTapes tl pos) = Ok (mkTapes (fix_bit tl pos (xorb (a && b) f)) (S pos)).
Proof.
  intros Ht Hp. unfold aux_mpc_AND. rewrite (w3_N P HP3). change (16 - 1) with 15.
  rewrite tapesToWord_ok by auto. cbn [bind tp_tape tp_pos].
  destruct Ht as [Hl Ht]. destruct (Ht 15) as [L B]; [lia|].
  rewrite (rd_ok tl 15 []) by lia. cbn [bind]. replace (S pos - 1) with pos by lia.
  rewrite getBit_ok by (apply lt_div8; lia). cbn [bind].
  rewrite setBit_ok by (apply lt_div8; lia). cbn [bind].
  rewrite wr_ok by lia. cbn [bind]. unfold fix_bit. f_equal. f_equal. f_equal. f_equal.
  rewrite parity16_w16.
  change (xsum 16 (fun i => tbit tl i pos)) with (xorb (xsum 15 (fun i => tbit tl i pos)) (tbit tl 15 pos)).
  fold (tbit tl 15 pos). generalize (xsum 15 (fun i => tbit tl i pos)). intros c. btauto.
Qed.

(** The fresh mask of the output of gate [q] such that the S-box maps mask [u] to mask [v]. *)
Definition fresh (u v : vec) (q : nat) : bool :=
  let k := q / 3 in
  match q mod 3 with
  | 0 => xorb (xorb (xorb (v (3 * k)) (u (3 * k + 2))) (u (3 * k + 1))) (u (3 * k))
  | 1 => xorb (v (3 * k + 2)) (u (3 * k + 2))
  | _ => xorb (xorb (v (3 * k + 1)) (u (3 * k + 2))) (u (3 * k + 1))
  end.

Lemma fresh_at u v k x : x < 3 ->
  fresh u v (3 * k + x) =
  match x with
  | 0 => xorb (xorb (xorb (v (3 * k)) (u (3 * k + 2))) (u (3 * k + 1))) (u (3 * k))
  | 1 => xorb (v (3 * k + 2)) (u (3 * k + 2))
  | _ => xorb (xorb (v (3 * k + 1)) (u (3 * k + 2))) (u (3 * k + 1))
  end.
Proof. intros Hx. unfold fresh. destruct (mod3_cases k x Hx) as [-> ->]. reflexivity. Qed.

(** Operands of gate [q]. *)
Definition ga (q : nat) : nat := gin1 (q / 3) (q mod 3).
Definition gb (q : nat) : nat := gin2 (q / 3) (q mod 3).

Lemma ga_at k x : x < 3 -> ga (3 * k + x) = gin1 k x.
Proof. intros Hx. unfold ga. destruct (mod3_cases k x Hx) as [-> ->]. reflexivity. Qed.
Lemma gb_at k x : x < 3 -> gb (3 * k + x) = gin2 k x.
Proof. intros Hx. unfold gb. destruct (mod3_cases k x Hx) as [-> ->]. reflexivity. Qed.

(** The parity the auxiliary bits establish at gate [q]. *)
Definition gate_par (u v : vec) (q : nat) : bool := xorb (u (ga q) && u (gb q)) (fresh u v q).

Lemma aux_mpc_AND3_ok a0 b0 f0 a1 b1 f1 a2 b2 f2 tl p :
  rows 16 tS tl -> p + 3 <= 8 * tS ->
  let v x := match x with
             | 0 => xorb (a0 && b0) f0 | 1 => xorb (a1 && b1) f1 | _ => xorb (a2 && b2) f2 end in
  ok (tp <- aux_mpc_AND E P a0 b0 f0 (mkTapes tl p) ;;
      tp <- aux_mpc_AND E P a1 b1 f1 tp ;;
      aux_mpc_AND E P a2 b2 f2 tp)
     (fun r => tp_pos r = p + 3 /\ rows 16 tS (tp_tape r) /\
        (forall i q, i < 15 -> tbit (tp_tape r) i q = tbit tl i q) /\
        (forall q, q < p \/ p + 3 <= q -> tbit (tp_tape r) 15 q = tbit tl 15 q) /\
        (forall x, x < 3 -> tbit (tp_tape r) 15 (p + x) =
                            xorb (v x) (xsum 15 (fun i => tbit tl i (p + x))))).
Proof.
  intros Ht Hp v.
  rewrite aux_mpc_AND_ok by (auto; zlia). cbn [bind].
  destruct (fix_bit_spec tl p (v 0) Ht ltac:(zlia)) as [R0 F0].
  fold (v 0). set (t0 := fix_bit tl p (v 0)) in *.
  rewrite aux_mpc_AND_ok by (auto; zlia). cbn [bind].
  destruct (fix_bit_spec t0 (S p) (v 1) R0 ltac:(zlia)) as [R1 F1].
  fold (v 1). set (t1 := fix_bit t0 (S p) (v 1)) in *.
  rewrite aux_mpc_AND_ok by (auto; zlia). cbn [ok tp_tape tp_pos].
  destruct (fix_bit_spec t1 (S (S p)) (v 2) R1 ltac:(zlia)) as [R2 F2].
  fold (v 2). set (t2 := fix_bit t1 (S (S p)) (v 2)) in *.
  split; [zlia|]. split; [exact R2|].
  assert (O0 : forall i q, i < 15 -> tbit t0 i q = tbit tl i q).
  { intros i q Hi. rewrite F0 by zlia. replace (i =? 15) with false by (clear - Hi; lia). reflexivity. }
  assert (O1 : forall i q, i < 15 -> tbit t1 i q = tbit tl i q).
  { intros i q Hi. rewrite F1 by zlia. replace (i =? 15) with false by (clear - Hi; lia). apply O0; auto. }
  assert (O2 : forall i q, i < 15 -> tbit t2 i q = tbit tl i q).
  { intros i q Hi. rewrite F2 by zlia. replace (i =? 15) with false by (clear - Hi; lia). apply O1; auto. }
  split; [exact O2|].
  assert (S0 : forall q, xsum 15 (fun i => tbit t0 i q) = xsum 15 (fun i => tbit tl i q))
    by (intros q; apply xsum_ext; intros; apply O0; auto).
  assert (S1 : forall q, xsum 15 (fun i => tbit t1 i q) = xsum 15 (fun i => tbit tl i q))
    by (intros q; apply xsum_ext; intros; apply O1; auto).
  assert (L : forall q, tbit t2 15 q =
     if q =? S (S p) then xorb (v 2) (xsum 15 (fun i => tbit tl i (S (S p))))
     else if q =? S p then xorb (v 1) (xsum 15 (fun i => tbit tl i (S p)))
     else if q =? p then xorb (v 0) (xsum 15 (fun i => tbit tl i p)) else tbit tl 15 q).
  { intros q. rewrite F2, F1, F0 by (clear; lia). rewrite S0, S1. reflexivity. }
  split.
  - intros q Hq. rewrite L.
    replace (q =? S (S p)) with false by (clear - Hq; lia).
    replace (q =? S p) with false by (clear - Hq; lia).
    replace (q =? p) with false by (clear - Hq; lia). reflexivity.
  - intros x Hx. rewrite L. destruct x as [|[|[|x]]]; [| | |clear - Hx; lia].
    + replace (p + 0) with p by (clear; lia).
      replace (p =? S (S p)) with false by (clear; lia).
      replace (p =? S p) with false by (clear; lia).
      rewrite Nat.eqb_refl. reflexivity.
    + replace (p + 1) with (S p) by (clear; lia).
      replace (S p =? S (S p)) with false by (clear; lia).
      rewrite Nat.eqb_refl. reflexivity.
    + replace (p + 2) with (S (S p)) by (clear; lia).
      rewrite Nat.eqb_refl. reflexivity.
Qed.

Lemma aux_mpc_sbox_ok inp out tl pos :
  rows 16 tS tl -> pos + n <= 8 * tS -> n <= 8 * length inp -> n <= 8 * length out ->
  ok (aux_mpc_sbox E P inp out (mkTapes tl pos))
     (fun r => tp_pos r = pos + n /\ rows 16 tS (tp_tape r) /\
        (forall i q, i < 15 -> tbit (tp_tape r) i q = tbit tl i q) /\
        (forall q, q < pos \/ pos + n <= q -> tbit (tp_tape r) 15 q = tbit tl 15 q) /\
        (forall q, q < n -> tbit (tp_tape r) 15 (pos + q) =
           xorb (gate_par (bit inp) (bit out) q) (xsum 15 (fun i => tbit tl i (pos + q))))).
Proof.
  intros Ht Hp Hi Ho. unfold aux_mpc_sbox.
  pose proof (w3_m P HP3) as Hm. fold m n in Hm.
  eapply ok_mono.
  - apply ok_for with (I := fun k (r : tapes_t) => tp_pos r = pos + 3 * k /\ rows 16 tS (tp_tape r) /\
        (forall i q, i < 15 -> tbit (tp_tape r) i q = tbit tl i q) /\
        (forall q, q < pos \/ pos + 3 * k <= q -> tbit (tp_tape r) 15 q = tbit tl 15 q) /\
        (forall q, q < 3 * k -> tbit (tp_tape r) 15 (pos + q) =
           xorb (gate_par (bit inp) (bit out) q) (xsum 15 (fun i => tbit tl i (pos + q))))).
    + cbn [tp_pos tp_tape]. split; [lia|]. repeat (split; [solve [auto]|]). intros; lia.
    + intros k [tk pk] Hk (H1 & H2 & H3 & H4 & H5). cbn [tp_pos tp_tape] in *. subst pk. fold m in Hk.
      rewrite !getBit_ok by (apply lt_div8; zlia). cbn [bind].
      eapply ok_mono; [apply aux_mpc_AND3_ok; [exact H2|zlia]|].
      cbv beta zeta. intros r (G1 & G2 & G3 & G4 & G5).
      split; [zlia|]. split; [auto|].
      split; [intros i q Hiq; rewrite G3 by auto; apply H3; auto|].
      split; [intros q Hq; rewrite G4 by zlia; apply H4; zlia|].
      intros q Hq. destruct (Nat.lt_ge_cases q (3 * k)) as [Hlt|Hge].
      * rewrite G4 by zlia. apply H5; auto.
      * assert (exists x, x < 3 /\ q = 3 * k + x) as (x & Hx & ->) by (exists (q - 3 * k); zlia).
        rewrite Nat.add_assoc, G5 by auto. f_equal.
        -- unfold gate_par. rewrite ga_at, gb_at, fresh_at by auto. unfold gin1, gin2.
           destruct x as [|[|x]]; btauto.
        -- apply xsum_ext. intros i Hi0. apply H3; auto.
  - cbv beta. intros r H. fold m in H. replace (3 * (0 + m)) with n in H by lia. exact H.
Qed.

End T.
