(** computeAuxTape, getAuxBits and setAuxBits in closed form. *)

From Coq Require Import List NArith Arith Bool Btauto Lia ZifyBool ZifyNat ZifyN.
From Verif Require Import Base Params Env Spec LowMC Picnic3 BaseFacts ParamFacts LowMCFacts
  LowMCInj UtilFacts Hint ZkbMpc ZkbChal P3Tape TreeShape.
Import ListNotations.

Local Opaque pack.

(** Positions on a tape: round [j] uses n mask bits followed by n bits for its gates. *)
Lemma pos_split n j o : o < 2 * n -> (2 * n * j + o) / (2 * n) = j /\ (2 * n * j + o) mod (2 * n) = o.
Proof.
  intros H. split.
  - rewrite Nat.mul_comm, Nat.div_add_l by lia. rewrite Nat.div_small; lia.
  - rewrite Nat.add_comm, Nat.mul_comm, Nat.mod_add by lia. apply Nat.mod_small; auto.
Qed.

Lemma pos_inv n p : 0 < n -> p = 2 * n * (p / (2 * n)) + p mod (2 * n) /\ p mod (2 * n) < 2 * n.
Proof.
  intros H. split; [apply Nat.div_mod; lia|apply Nat.mod_upper_bound; lia].
Qed.

Lemma pos_lt a j R q : j < R -> q < a -> a * j + q < a * R.
Proof. nia. Qed.

Lemma row_split n j q : q < n -> (n * j + q) / n = j /\ (n * j + q) mod n = q.
Proof.
  intros H. split.
  - rewrite Nat.mul_comm, Nat.div_add_l by lia. rewrite Nat.div_small; lia.
  - rewrite Nat.add_comm, Nat.mul_comm, Nat.mod_add by lia. apply Nat.mod_small; auto.
Qed.

Section A.
Variable E : env.
Variable P : paramset.

Let n := stateSizeBits P.
Let m := numSboxes P.
Let R := numRounds P.
Let W := stateSizeWords P.
Let sB := stateSizeBytes P.
Let aB := andSizeBytes P.
Let tS := p3_tapeSize P.
Let L := lowmc_of E P.

(** The mask of the state before the S-boxes of round [j] (no mask after the last round). *)
Definition lam (tl : list bytes) (j : nat) : vec :=
  fun k => if j <? R then tpar tl (2 * n * j + k) else false.

(** The mask of the key. *)
Definition mkey (tl : list bytes) : vec :=
  matvec n (mat_of_bytes W (KMatrixInv E P 0)) (lam tl 0).

(** The mask after the S-boxes of round [j]. *)
Definition ymask (tl : list bytes) (j : nat) : vec :=
  matvec n (mat_of_bytes W (LMatrixInv E P j))
         (vxor (lam tl (S j)) (matvec n (mat_of_bytes W (KMatrix E P (S j))) (mkey tl))).

Definition auxbit (tl : list bytes) (j q : nat) : bool :=
  xorb (gate_par (lam tl j) (ymask tl j) q) (xsum 15 (fun i => tbit tl i (2 * n * j + n + q))).

Definition aux_tape (tl : list bytes) : bytes :=
  pack tS (fun p => let j := p / (2 * n) in let o := p mod (2 * n) in
                    if (j <? R) && (n <=? o) then auxbit tl j (o - n) else tbit tl 15 p).

Definition aux_tapes (tl : list bytes) : list bytes := list_set tl 15 (aux_tape tl).

Definition aux_key (tl : list bytes) : bytes := pack sB (fun i => if i <? n then mkey tl i else false).

(** The auxiliary bits of a set of tapes: the gate bits of the last party. *)
Definition aux_of (tl : list bytes) : bytes :=
  pack aB (fun p => if p <? n * R then tbit tl 15 (2 * n * (p / n) + n + p mod n) else false).

(** Tapes whose last party has the given auxiliary bits. *)
Definition with_aux (tl : list bytes) (a : bytes) : list bytes :=
  list_set tl 15 (pack tS (fun p => let j := p / (2 * n) in let o := p mod (2 * n) in
                    if (j <? R) && (n <=? o) then bit a (n * j + (o - n)) else tbit tl 15 p)).

Hypothesis HP3 : wfP3 P.
Let HP := w3_wfP P HP3.

Lemma tS_bits : 2 * n * R <= 8 * tS.
Proof.
  unfold tS, p3_tapeSize. pose proof (wf_aB P HP) as H. pose proof (w3_m P HP3) as Hm.
  pose proof (numBytes_spec (3 * numSboxes P * numRounds P)) as Hs. rewrite <- H, Hm in Hs.
  unfold n, R. lia.
Qed.

Lemma aB_nR : n * R <= 8 * aB < n * R + 8.
Proof.
  unfold aB. pose proof (wf_aB P HP) as H. pose proof (w3_m P HP3) as Hm.
  pose proof (numBytes_spec (3 * numSboxes P * numRounds P)) as Hs. rewrite <- H, Hm in Hs.
  unfold n, R. lia.
Qed.

Lemma n_pos : 0 < n.
Proof. apply (wf_n P HP). Qed.

Lemma ga_lt q : q < n -> ga q < n /\ gb q < n.
Proof.
  intros H. pose proof (w3_m P HP3) as Hm. fold n m in Hm.
  destruct (split3 q m ltac:(lia)) as (k & x & Hk & Hx & ->). rewrite ga_at, gb_at by auto.
  destruct (gin_lt k x m Hk). lia.
Qed.

Lemma fresh_ext u u' v v' q : veq n u u' -> veq n v v' -> q < n -> fresh u v q = fresh u' v' q.
Proof.
  intros Hu Hv H. pose proof (w3_m P HP3) as Hm. fold n m in Hm.
  destruct (split3 q m ltac:(lia)) as (k & x & Hk & Hx & ->). rewrite !fresh_at by auto.
  rewrite !Hu, !Hv by lia. reflexivity.
Qed.

Lemma gate_par_ext u u' v v' q : veq n u u' -> veq n v v' -> q < n -> gate_par u v q = gate_par u' v' q.
Proof.
  intros Hu Hv H. unfold gate_par. rewrite (fresh_ext u u' v v') by auto.
  destruct (ga_lt q H). rewrite !Hu by auto. reflexivity.
Qed.

Lemma aux_tapes_spec tl : rows 16 tS tl ->
  rows 16 tS (aux_tapes tl) /\
  (forall i q, i < 15 -> tbit (aux_tapes tl) i q = tbit tl i q) /\
  (forall j q, j < R -> q < n -> tbit (aux_tapes tl) 15 (2 * n * j + q) = tbit tl 15 (2 * n * j + q)) /\
  (forall q, 2 * n * R <= q -> tbit (aux_tapes tl) 15 q = tbit tl 15 q) /\
  (forall j q, j < R -> q < n -> tbit (aux_tapes tl) 15 (2 * n * j + n + q) = auxbit tl j q).
Proof.
  intros Ht. pose proof tS_bits as Hb. pose proof n_pos as Hn. destruct Ht as [Hl Ht]. destruct (Ht 15) as [L15 B15]; [lia|].
  set (f := fun p => let j := p / (2 * n) in let o := p mod (2 * n) in
                    if (j <? R) && (n <=? o) then auxbit tl j (o - n) else tbit tl 15 p).
  destruct (pack_spec tS f) as (P1 & P2 & P3).
  assert (N15 : forall q, tbit (aux_tapes tl) 15 q = if q <? 8 * tS then f q else false).
  { intros q. unfold tbit, aux_tapes. rewrite nth_list_set by lia. cbn [Nat.eqb].
    unfold aux_tape. apply P3. }
  split; [apply rows_set; [split; auto|lia|exact P1|exact P2]|].
  split.
  { intros i q Hi. unfold tbit, aux_tapes. rewrite nth_list_set by lia.
    replace (i =? 15) with false by lia. reflexivity. }
  split; [|split].
  - intros j q Hj Hq. rewrite N15. pose proof (pos_lt (2 * n) j R q Hj ltac:(lia)).
    replace (2 * n * j + q <? 8 * tS) with true by lia. unfold f. cbv zeta.
    destruct (pos_split n j q ltac:(lia)) as [-> ->].
    replace (n <=? q) with false by lia. rewrite andb_false_r. reflexivity.
  - intros q Hq. rewrite N15. destruct (Nat.ltb_spec q (8 * tS)).
    + unfold f. cbv zeta. replace (q / (2 * n) <? R) with false; [reflexivity|].
      symmetry. apply Nat.ltb_ge. apply Nat.div_le_lower_bound; lia.
    + symmetry. apply bit_overflow. rewrite L15. apply Nat.div_le_lower_bound; lia.
  - intros j q Hj Hq. rewrite N15. pose proof (pos_lt (2 * n) j R (n + q) Hj ltac:(lia)).
    replace (2 * n * j + n + q <? 8 * tS) with true by lia. unfold f. cbv zeta.
    rewrite <- Nat.add_assoc. destruct (pos_split n j (n + q) ltac:(lia)) as [-> ->].
    replace ((j <? R) && (n <=? n + q)) with true by lia. f_equal. lia.
Qed.

Lemma tape_cases p : p < 2 * n * R ->
  exists j q, j < R /\ q < n /\ (p = 2 * n * j + q \/ p = 2 * n * j + n + q).
Proof.
  intros Hp. pose proof n_pos as Hn. destruct (pos_inv n p Hn) as [E1 E2].
  set (j := p / (2 * n)) in *. set (o := p mod (2 * n)) in *.
  assert (j < R) by (clear - Hp E1; nia).
  destruct (Nat.lt_ge_cases o n).
  - exists j, o. auto.
  - exists j, (o - n). split; [auto|]. split; lia.
Qed.

Lemma aux_tapes_unique tl tl' : rows 16 tS tl -> rows 16 tS tl' ->
  (forall i q, i < 15 -> tbit tl' i q = tbit tl i q) ->
  (forall j q, j < R -> q < n -> tbit tl' 15 (2 * n * j + q) = tbit tl 15 (2 * n * j + q)) ->
  (forall q, 2 * n * R <= q -> tbit tl' 15 q = tbit tl 15 q) ->
  (forall j q, j < R -> q < n -> tbit tl' 15 (2 * n * j + n + q) = auxbit tl j q) ->
  tl' = aux_tapes tl.
Proof.
  intros Ht Ht' H1 H2 H3 H4. destruct (aux_tapes_spec tl Ht) as (G0 & G1 & G2 & G3 & G4).
  apply (rows_ext 16 tS); auto. intros i p Hi Hp.
  destruct (Nat.eq_dec i 15) as [->|Hne]; [|rewrite H1, G1 by lia; auto].
  destruct (Nat.lt_ge_cases p (2 * n * R)) as [Hlt|Hge]; [|rewrite H3, G3 by auto; auto].
  destruct (tape_cases p Hlt) as (j & q & Hj & Hq & [->| ->]).
  - rewrite H2, G2 by auto; auto.
  - rewrite H4, G4 by auto; auto.
Qed.

Hypothesis HE : env_bytes_ok E.
Hypothesis HC : constants_ok E P.
Hypothesis HI : inverses_ok E P.

Lemma sB_W : sB <= 4 * W /\ 4 * W <= 32 /\ n <= 8 * sB < n + 8 /\ n <= 32 * W /\ 0 < W.
Proof.
  pose proof (wf_sB P HP). pose proof (wf_W2 P HP). pose proof (wf_W1 P HP). pose proof (wf_W3 P HP).
  pose proof (wf_W0 P HP). pose proof (numBytes_spec (stateSizeBits P)).
  unfold sB, W, n. lia.
Qed.

Lemma computeAuxTape_ok tl : rows 16 tS tl ->
  computeAuxTape E P (mkTapes tl 0) = Ok (mkTapes (aux_tapes tl) 0, aux_key tl).
Proof.
  intros Ht. pose proof tS_bits as Hb. pose proof n_pos as Hn. pose proof sB_W as (Hs1 & Hs2 & Hs3 & Hs4 & Hs5).
  destruct HE as [_ HU]. destruct HC as (HK & HL & _). destruct HI as ((HKl & HKb) & _ & HLi).
  pose proof (wf_r P HP) as Hr. fold R in Hr.
  assert (Hn1 : n <= 2 * n * R) by nia.
  assert (Main : ok (computeAuxTape E P (mkTapes tl 0))
     (fun r => r = (mkTapes (aux_tapes tl) 0, aux_key tl))).
  2:{ apply ok_ex in Main. destruct Main as (r & -> & ->). reflexivity. }
  unfold computeAuxTape. fold n W sB R.
  destruct (HU site_aux_roundKey 0 LOWMC_MAX_STATE_BYTES) as [Url Urb].
  destruct (HU site_aux_y 0 LOWMC_MAX_STATE_BYTES) as [Uyl Uyb].
  destruct (HU site_aux_key 0 LOWMC_MAX_STATE_BYTES) as [Ukl Ukb].
  destruct (HU site_aux_key0 0 LOWMC_MAX_STATE_BYTES) as [U0l U0b].
  set (rk0 := uninit E site_aux_roundKey 0 _) in *. set (y0 := uninit E site_aux_y 0 _) in *.
  set (kk0 := uninit E site_aux_key 0 _) in *. set (k00 := uninit E site_aux_key0 0 _) in *.
  clearbody rk0 y0 kk0 k00. unfold LOWMC_MAX_STATE_BYTES in *.
  rewrite blit_ok by (rewrite length_zeros; lia). cbn [bind].
  set (k01 := blit_list _ _ _).
  assert (L01 : length k01 = 64) by (unfold k01; rewrite length_blit_list; [auto|rewrite length_zeros; lia]).
  assert (B01 : bytes_ok k01) by (apply bytes_ok_blit; auto; apply bytes_ok_zeros).
  clearbody k01.
  eapply ok_step; [apply (tapesToParityBits_ok E P HE); auto; fold tS; lia|].
  cbv beta. intros [key0 tp0] (T1 & T2 & T3 & T4). cbn [fst snd] in *. subst tp0. fold n in T4.
  eapply ok_step; [apply matrix_mul_spec; auto; fold n W; lia|].
  cbv beta. intros key (K1 & K2 & K3). fold n W in K3.
  assert (Hkey : veq n (bit key) (mkey tl)).
  { intros i Hi. rewrite K3. replace (i <? n) with true by lia. unfold mkey.
    apply matvec_ext. intros j Hj. rewrite T4. replace (j <? n) with true by lia. unfold lam.
    replace (0 <? R) with true by lia. f_equal. lia. }
  rewrite slice0_ok by lia. cbn [bind].
  eapply ok_step.
  - apply ok_down with (I := fun r (s : tapes_t * bytes * bytes * bytes) =>
      let '(tp, roundKey, x, y) := s in
      rows 16 tS (tp_tape tp) /\
      (forall i q, i < 15 -> tbit (tp_tape tp) i q = tbit tl i q) /\
      (forall j q, j < R -> q < n -> tbit (tp_tape tp) 15 (2 * n * j + q) = tbit tl 15 (2 * n * j + q)) /\
      (forall q, 2 * n * R <= q -> tbit (tp_tape tp) 15 q = tbit tl 15 q) /\
      (forall j q, r <= j -> j < R -> q < n -> tbit (tp_tape tp) 15 (2 * n * j + n + q) = auxbit tl j q) /\
      length roundKey = 64 /\ bytes_ok roundKey /\ length y = 64 /\ bytes_ok y /\
      length x = 64 /\ bytes_ok x /\ veq n (bit x) (lam tl r)).
    + cbn [tp_tape]. repeat (split; [solve [auto]|]).
      split; [intros; lia|]. repeat (split; [solve [auto]|]).
      split; [apply bytes_ok_zeros|].
      intros i Hi. rewrite bit_zeros. unfold lam. replace (R <? R) with false by lia. auto.
    + intros r [[[tp rk] x] y] Hr0 (I1 & I2 & I3 & I4 & I5 & I6 & I7 & I8 & I9 & I10 & I11 & I12).
      destruct (HK r) as [HKrl HKrb]; [fold R; zlia|].
      eapply ok_step; [apply matrix_mul_spec; auto; fold n W; zlia|].
      cbv beta. fold n W. intros rk' (R1 & R2 & R3).
      eapply ok_step; [apply xor_array_spec; zlia|].
      cbv beta. intros x' (X1 & X2 & X3).
      destruct (HLi (r - 1)) as (HLil & HLib & _); [fold R; zlia|].
      eapply ok_step; [apply matrix_mul_spec; auto; fold n W; zlia|].
      cbv beta. fold n W. intros y' (Y1 & Y2 & Y3).
      assert (HX : veq n (bit x') (vxor (lam tl r) (matvec n (mat_of_bytes W (KMatrix E P r)) (mkey tl)))).
      { intros i Hi. rewrite X3. replace (i <? 32 * W) with true by (clear - Hi Hs4; lia).
        unfold vxor. rewrite I12 by auto. f_equal. rewrite R3.
        replace (i <? n) with true by (clear - Hi; lia). apply matvec_ext. exact Hkey. }
      assert (HY : veq n (bit y') (ymask tl (r - 1))).
      { intros i Hi. rewrite Y3. replace (i <? n) with true by (clear - Hi; lia).
        unfold ymask. replace (S (r - 1)) with r by (clear - Hr0; lia).
        apply matvec_ext. exact HX. }
      (* the masks before the S-boxes *)
      eapply ok_step with (Q := fun s : bytes * tapes_t => rows 16 tS (tp_tape (snd s)) /\
         tp_tape (snd s) = tp_tape tp /\ length (fst s) = 64 /\ bytes_ok (fst s) /\
         veq n (bit (fst s)) (lam tl (r - 1))).
      { destruct (Nat.eqb_spec r 1) as [Hr1|Hr1].
        - rewrite slice0_ok by zlia. cbn [bind].
          assert (Lf : length (firstn sB key0) = sB) by (rewrite firstn_length; zlia).
          rewrite blit_ok by zlia. cbn [bind ok fst snd].
          split; [auto|]. split; [auto|]. split; [rewrite length_blit_list; zlia|].
          split; [apply bytes_ok_blit; auto; apply Forall_firstn; auto|].
          intros i Hi. rewrite bit_blit0 by zlia. rewrite Lf.
          replace (i <? 8 * sB) with true by (clear - Hi Hs3; lia).
          rewrite bit_firstn by zlia. rewrite T4. replace (i <? n) with true by (clear - Hi; lia).
          subst r. unfold lam. replace (1 - 1 <? R) with true by (clear - Hr; lia). f_equal. clear; lia.
        - assert (Hpos : n * 2 * (r - 1) + n <= 8 * tS).
          { assert (2 * n * (r - 1) + 2 * n <= 2 * n * R) by (clear - Hr0; nia). clear - H Hb. lia. }
          eapply ok_mono; [apply (tapesToParityBits_ok E P HE); auto; fold tS; zlia|].
          cbv beta. intros [x2 tp2] (U1 & U2 & U3 & U4). cbn [fst snd] in *. subst tp2. cbn [tp_tape].
          split; [auto|]. split; [auto|]. split; [zlia|]. split; [auto|].
          intros i Hi. rewrite U4. replace (i <? n) with true by (clear - Hi; lia).
          unfold lam. replace (r - 1 <? R) with true by (clear - Hr0; lia).
          unfold tpar. apply xsum_ext. intros p Hp.
          replace (n * 2 * (r - 1) + i) with (2 * n * (r - 1) + i) by (clear; lia).
          destruct (Nat.eq_dec p 15) as [->|]; [apply I3; auto; clear - Hr0; lia|apply I2; clear - Hp n0; lia]. }
      intros [x2 tp2] (V1 & V2 & V3 & V4 & V5). cbn [fst snd] in *.
      assert (Hpos : n * 2 * (r - 1) + n + n <= 8 * tS).
      { assert (2 * n * (r - 1) + 2 * n <= 2 * n * R) by (clear - Hr0; nia). clear - H Hb. lia. }
      eapply ok_step; [apply (aux_mpc_sbox_ok E P HP3 HE); [exact V1|exact Hpos|fold n; zlia|fold n; zlia]|].
      cbv beta. fold n tS. intros tp3 (Z1 & Z2 & Z3 & Z4 & Z5). cbn [ok].
      replace (n * 2 * (r - 1)) with (2 * n * (r - 1)) in * by (clear; lia).
      rewrite V2 in *.
      split; [auto|]. split; [intros i q Hi; rewrite Z3 by auto; apply I2; auto|].
      split.
      { intros j q Hj Hq. rewrite Z4; [apply I3; auto|].
        destruct (Nat.lt_trichotomy j (r - 1)) as [Hlt|[He|Hgt]].
        - left. assert (2 * n * j + 2 * n <= 2 * n * (r - 1)) by (clear - Hlt; nia). clear - H Hq. lia.
        - left. subst j. clear - Hq. lia.
        - right. assert (2 * n * (r - 1) + 2 * n <= 2 * n * j) by (clear - Hgt; nia). clear - H. lia. }
      split.
      { intros q Hq. rewrite Z4; [apply I4; auto|]. right.
        assert (2 * n * (r - 1) + 2 * n <= 2 * n * R) by (clear - Hr0; nia). clear - H Hq. lia. }
      split.
      { intros j q Hj HjR Hq. destruct (Nat.eq_dec j (r - 1)) as [->|Hne].
        - rewrite Z5 by auto. unfold auxbit. f_equal.
          + apply gate_par_ext; auto.
          + apply xsum_ext. intros i Hi. apply I2; auto.
        - rewrite Z4; [apply I5; auto; clear - Hj Hne Hr0; lia|]. right.
          assert (2 * n * (r - 1) + 2 * n <= 2 * n * j) by (clear - Hj Hne Hr0; nia). clear - H. lia. }
      split; [zlia|]. split; [auto|]. split; [zlia|]. split; [auto|]. auto.
  - intros [[[tp rk] x] y] (I1 & I2 & I3 & I4 & I5 & _). cbn [ok]. f_equal.
    + f_equal. apply aux_tapes_unique; auto. intros; apply I5; auto; lia.
    + unfold aux_key. apply pack_unique.
      * rewrite firstn_length. lia.
      * apply Forall_firstn. apply K2. auto.
      * intros k Hk. rewrite bit_firstn by auto. destruct (Nat.ltb_spec k n).
        -- apply Hkey; auto.
        -- rewrite K3. replace (k <? n) with false by lia. replace (k <? 32 * W) with true by lia. auto.
Qed.

End A.

(** ** Extracting and inserting the auxiliary bits *)
Section B.
Variable E : env.
Variable P : paramset.
Hypothesis HP3 : wfP3 P.

Let n := stateSizeBits P.
Let R := numRounds P.
Let aB := andSizeBytes P.
Let tS := p3_tapeSize P.

Lemma getAuxBits_ok out tl pos :
  rows 16 tS tl -> n * R <= 8 * length out -> bytes_ok out ->
  ok (getAuxBits P out (mkTapes tl pos))
     (fun o => length o = length out /\ bytes_ok o /\
        forall p, bit o p = if p <? n * R then bit (aux_of P tl) p else bit out p).
Proof.
  intros [Hl Ht] Ho Hb. pose proof (n_pos P HP3) as Hn. fold n in Hn.
  pose proof (tS_bits P HP3) as Hts. fold n R tS in Hts.
  pose proof (aB_nR P HP3) as Ha. fold n R aB in Ha.
  unfold getAuxBits. rewrite (w3_N P HP3). change (16 - 1) with 15. fold n R. cbn [tp_tape].
  destruct (Ht 15) as [L15 B15]; [lia|].
  rewrite (rd_ok tl 15 []) by lia. cbn [bind].
  set (g := fun p => tbit tl 15 (2 * n * (p / n) + n + p mod n)).
  eapply ok_mono.
  - apply ok_for with (I := fun j (o : bytes) => length o = length out /\ bytes_ok o /\
      forall p, bit o p = if p <? n * j then g p else bit out p).
    + split; [auto|]. split; [auto|]. intros p. replace (p <? n * 0) with false by lia. auto.
    + intros j o Hj (H1 & H2 & H3). fold R in Hj.
      eapply ok_mono.
      * apply ok_for with (I := fun i (o : bytes) => length o = length out /\ bytes_ok o /\
          forall p, bit o p = if p <? n * j + i then g p else bit out p).
        -- split; [auto|]. split; [auto|]. intros p. rewrite Nat.add_0_r. auto.
        -- intros i o' Hi (G1 & G2 & G3).
           pose proof (pos_lt n j R i ltac:(lia) ltac:(lia)).
           pose proof (pos_lt (2 * n) j R (n + i) ltac:(lia) ltac:(lia)).
           rewrite getBit_ok by (apply lt_div8; lia). cbn [bind].
           rewrite setBit_ok by (apply lt_div8; lia). cbn [ok].
           split; [rewrite length_set_bit; auto|]. split; [apply bytes_ok_set_bit; auto|].
           intros p. rewrite bit_set_bit by (apply lt_div8; lia). rewrite G3.
           destruct (Nat.eqb_spec p (n * j + i)) as [He|He].
           ++ subst p. replace (n * j + i <? n * j + S i) with true by lia.
              unfold g, tbit. destruct (row_split n j i ltac:(lia)) as [-> ->]. f_equal. lia.
           ++ replace (p <? n * j + S i) with (p <? n * j + i) by (clear - He; lia). auto.
      * cbv beta. intros o' (G1 & G2 & G3). split; [auto|]. split; [auto|].
        intros p. rewrite G3. replace (n * S j) with (n * j + (0 + n)) by lia. auto.
  - cbv beta. intros o (H1 & H2 & H3). rewrite Nat.add_0_l in H3. split; [auto|]. split; [auto|].
    intros p. rewrite H3. destruct (Nat.ltb_spec p (n * R)) as [Hp|]; auto.
    unfold aux_of. fold n R aB tS.
    match goal with |- _ = bit (pack _ ?f) _ => destruct (pack_spec aB f) as (_ & _ & P3) end.
    rewrite P3. replace (p <? 8 * aB) with true by lia. replace (p <? n * R) with true by lia.
    reflexivity.
Qed.

Lemma aux_of_spec tl :
  length (aux_of P tl) = aB /\ bytes_ok (aux_of P tl) /\
  (forall j q, j < R -> q < n -> bit (aux_of P tl) (n * j + q) = tbit tl 15 (2 * n * j + n + q)) /\
  (forall p, n * R <= p -> bit (aux_of P tl) p = false).
Proof.
  pose proof (n_pos P HP3) as Hn. fold n in Hn. pose proof (aB_nR P HP3) as Ha. fold n R aB in Ha.
  unfold aux_of. fold n R aB.
  match goal with |- context [pack _ ?f] => destruct (pack_spec aB f) as (P1 & P2 & P3) end.
  split; [auto|]. split; [auto|]. split.
  - intros j q Hj Hq. rewrite P3. pose proof (pos_lt n j R q Hj Hq).
    replace (n * j + q <? 8 * aB) with true by lia. replace (n * j + q <? n * R) with true by lia.
    destruct (row_split n j q Hq) as [-> ->]. reflexivity.
  - intros p Hp. rewrite P3. replace (p <? n * R) with false by lia. destruct (p <? 8 * aB); auto.
Qed.

Lemma with_aux_spec tl a : rows 16 tS tl ->
  rows 16 tS (with_aux P tl a) /\
  (forall i q, i < 15 -> tbit (with_aux P tl a) i q = tbit tl i q) /\
  (forall j q, j < R -> q < n -> tbit (with_aux P tl a) 15 (2 * n * j + q) = tbit tl 15 (2 * n * j + q)) /\
  (forall q, 2 * n * R <= q -> tbit (with_aux P tl a) 15 q = tbit tl 15 q) /\
  (forall j q, j < R -> q < n -> tbit (with_aux P tl a) 15 (2 * n * j + n + q) = bit a (n * j + q)).
Proof.
  intros Ht. pose proof (tS_bits P HP3) as Hb. fold n R tS in Hb.
  pose proof (n_pos P HP3) as Hn. fold n in Hn.
  destruct Ht as [Hl Ht]. destruct (Ht 15) as [L15 B15]; [lia|].
  set (f := fun p => let j := p / (2 * n) in let o := p mod (2 * n) in
                    if (j <? R) && (n <=? o) then bit a (n * j + (o - n)) else tbit tl 15 p).
  destruct (pack_spec tS f) as (P1 & P2 & P3).
  assert (N15 : forall q, tbit (with_aux P tl a) 15 q = if q <? 8 * tS then f q else false).
  { intros q. unfold tbit, with_aux. rewrite nth_list_set by lia. cbn [Nat.eqb]. apply P3. }
  split; [apply rows_set; [split; auto|lia|exact P1|exact P2]|].
  split.
  { intros i q Hi. unfold tbit, with_aux. rewrite nth_list_set by lia.
    replace (i =? 15) with false by lia. reflexivity. }
  split; [|split].
  - intros j q Hj Hq. rewrite N15. pose proof (pos_lt (2 * n) j R q Hj ltac:(lia)).
    replace (2 * n * j + q <? 8 * tS) with true by lia. unfold f. cbv zeta.
    destruct (pos_split n j q ltac:(lia)) as [-> ->].
    replace (n <=? q) with false by lia. rewrite andb_false_r. reflexivity.
  - intros q Hq. rewrite N15. destruct (Nat.ltb_spec q (8 * tS)).
    + unfold f. cbv zeta. replace (q / (2 * n) <? R) with false; [reflexivity|].
      symmetry. apply Nat.ltb_ge. apply Nat.div_le_lower_bound; lia.
    + symmetry. apply bit_overflow. rewrite L15. apply Nat.div_le_lower_bound; lia.
  - intros j q Hj Hq. rewrite N15. pose proof (pos_lt (2 * n) j R (n + q) Hj ltac:(lia)).
    replace (2 * n * j + n + q <? 8 * tS) with true by lia. unfold f. cbv zeta.
    rewrite <- Nat.add_assoc. destruct (pos_split n j (n + q) ltac:(lia)) as [-> ->].
    replace ((j <? R) && (n <=? n + q)) with true by lia. f_equal. lia.
Qed.

(** A set of tapes is determined by its three zones. *)
Lemma zones_ext tl tl' : rows 16 tS tl -> rows 16 tS tl' ->
  (forall i q, i < 15 -> tbit tl' i q = tbit tl i q) ->
  (forall j q, j < R -> q < n -> tbit tl' 15 (2 * n * j + q) = tbit tl 15 (2 * n * j + q)) ->
  (forall q, 2 * n * R <= q -> tbit tl' 15 q = tbit tl 15 q) ->
  (forall j q, j < R -> q < n -> tbit tl' 15 (2 * n * j + n + q) = tbit tl 15 (2 * n * j + n + q)) ->
  tl' = tl.
Proof.
  intros Ht Ht' H1 H2 H3 H4.
  apply (rows_ext 16 tS); auto. intros i p Hi Hp.
  destruct (Nat.eq_dec i 15) as [->|Hne]; [|rewrite H1 by lia; auto].
  destruct (Nat.lt_ge_cases p (2 * n * R)) as [Hlt|Hge]; [|rewrite H3 by auto; auto].
  destruct (tape_cases P HP3 p Hlt) as (j & q & Hj & Hq & [->| ->]).
  - apply H2; auto.
  - apply H4; auto.
Qed.

Lemma setAuxBits_ok tl pos a : rows 16 tS tl -> n * R <= 8 * length a ->
  setAuxBits P (mkTapes tl pos) a = Ok (mkTapes (with_aux P tl a) pos).
Proof.
  intros Ht Ha. destruct (with_aux_spec tl a Ht) as (W1 & W2 & W3 & W4 & W5).
  pose proof (n_pos P HP3) as Hn. fold n in Hn.
  pose proof (tS_bits P HP3) as Hts. fold n R tS in Hts.
  pose proof Ht as [Hl Hr]. destruct (Hr 15) as [L15 B15]; [lia|].
  unfold setAuxBits. rewrite (w3_N P HP3). change (16 - 1) with 15. fold n R. cbn [tp_tape tp_pos].
  rewrite (rd_ok tl 15 []) by lia. cbn [bind].
  set (zone := fun (j i : nat) (t : bytes) =>
    length t = tS /\ bytes_ok t /\
    (forall j' q, j' < R -> q < n -> bit t (2 * n * j' + q) = tbit tl 15 (2 * n * j' + q)) /\
    (forall q, 2 * n * R <= q -> bit t q = tbit tl 15 q) /\
    (forall j' q, j' < R -> q < n -> (j' < j \/ j' = j /\ q < i) ->
       bit t (2 * n * j' + n + q) = bit a (n * j' + q))).
  assert (Main : ok (for_loop R 0 (fun j tl0 => for_loop n 0 (fun i tl1 =>
      b <- getBit a (n * j + i);; setBit tl1 (n + n * 2 * j + i) b) tl0) (nth 15 tl []))
      (zone R 0)).
  { apply ok_for with (I := fun j t => zone j 0 t).
    - split; [auto|]. split; [auto|]. split; [auto|]. split; [auto|]. intros; lia.
    - intros j t Hj Hz. eapply ok_mono.
      + apply ok_for with (I := fun i t => zone j i t); [exact Hz|].
        intros i t' Hi (Z1 & Z2 & Z3 & Z4 & Z5).
        pose proof (pos_lt n j R i ltac:(lia) ltac:(lia)).
        pose proof (pos_lt (2 * n) j R (n + i) ltac:(lia) ltac:(lia)).
        rewrite getBit_ok by (apply lt_div8; lia). cbn [bind].
        rewrite setBit_ok by (apply lt_div8; lia). cbn [ok].
        split; [rewrite length_set_bit; auto|]. split; [apply bytes_ok_set_bit; auto|].
        assert (B : (n + n * 2 * j + i) / 8 < length t') by (apply lt_div8; lia).
        split; [|split].
        * intros j' q Hj' Hq. rewrite bit_set_bit by auto.
          destruct (Nat.eqb_spec (2 * n * j' + q) (n + n * 2 * j + i)) as [He|He]; [|apply Z3; auto].
          exfalso. replace (n + n * 2 * j + i) with (2 * n * j + (n + i)) in He by (clear; lia).
          destruct (pos_split n j' q ltac:(lia)) as [_ M1].
          destruct (pos_split n j (n + i) ltac:(lia)) as [_ M2]. rewrite He, M2 in M1. clear - M1 Hq. lia.
        * intros q Hq. rewrite bit_set_bit by auto.
          destruct (Nat.eqb_spec q (n + n * 2 * j + i)) as [He|He]; [lia|apply Z4; auto].
        * intros j' q Hj' Hq Hcase. rewrite bit_set_bit by auto.
          replace (n + n * 2 * j + i) with (2 * n * j + (n + i)) by (clear; lia).
          destruct (Nat.eqb_spec (2 * n * j' + n + q) (2 * n * j + (n + i))) as [He|He].
          -- rewrite <- Nat.add_assoc in He.
             destruct (pos_split n j' (n + q) ltac:(lia)) as [D1 M1].
             destruct (pos_split n j (n + i) ltac:(lia)) as [D2 M2].
             rewrite He in D1, M1. assert (j' = j) by congruence. assert (q = i) by (clear - M1 M2; lia).
             clear - H1 H2. rewrite H1, H2. reflexivity.
          -- apply Z5; auto. destruct (Nat.eq_dec j' j) as [->|]; [|clear - Hcase n0; lia].
             assert (q <> i) by (intros ->; apply He; clear; lia). clear - Hcase H1. lia.
      + cbv beta. intros t' (Z1 & Z2 & Z3 & Z4 & Z5). repeat (split; [solve [auto]|]).
        intros j' q Hj' Hq Hcase. apply Z5; auto. clear - Hcase Hq. lia. }
  apply ok_ex in Main. destruct Main as (t & -> & Z1 & Z2 & Z3 & Z4 & Z5). cbn [bind].
  rewrite wr_ok by lia. cbn [bind]. f_equal. f_equal.
  apply zones_ext; auto.
  - apply rows_set; auto.
  - intros i q Hi. rewrite W2 by auto. unfold tbit. rewrite nth_list_set by lia.
    replace (i =? 15) with false by lia. auto.
  - intros j q Hj Hq. rewrite W3 by auto. unfold tbit at 1. rewrite nth_list_set by lia. apply Z3; auto.
  - intros q Hq. rewrite W4 by auto. unfold tbit at 1. rewrite nth_list_set by lia. apply Z4; auto.
  - intros j q Hj Hq. rewrite W5 by auto. unfold tbit at 1. rewrite nth_list_set by lia.
    apply Z5; auto.
Qed.

(** Inserting the auxiliary bits of a preprocessed set of tapes preprocesses the original tapes. *)
Lemma with_aux_of tl : rows 16 tS tl ->
  with_aux P tl (aux_of P (aux_tapes E P tl)) = aux_tapes E P tl.
Proof.
  intros Ht. destruct (aux_tapes_spec E P HP3 tl Ht) as (G0 & G1 & G2 & G3 & G4).
  fold n R in G2, G3, G4. fold tS in G0.
  destruct (with_aux_spec tl (aux_of P (aux_tapes E P tl)) Ht) as (W1 & W2 & W3 & W4 & W5).
  destruct (aux_of_spec (aux_tapes E P tl)) as (_ & _ & A3 & _).
  apply zones_ext; auto.
  - intros i q Hi. rewrite W2, G1 by auto. auto.
  - intros j q Hj Hq. rewrite W3, G2 by auto. auto.
  - intros q Hq. rewrite W4, G3 by auto. auto.
  - intros j q Hj Hq. rewrite W5, A3 by auto. auto.
Qed.

End B.
