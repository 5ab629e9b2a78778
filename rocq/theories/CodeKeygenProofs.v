(** Key generation on memory. *)

From Coq Require Import List NArith Arith Bool Lia ZifyBool ZifyNat ZifyN.
From Verif Require Import Base Params Env Spec LowMC MiniC CodeLowMC CodeSpec CodeZkbSpec CodeSign CodeKeys CodeKeygen CodeKeysSpec
  Api ApiSpec BaseFacts ParamFacts MiniCFacts CodeRules LowMCFacts CodeLowMCProofs CodeHeap CodeP3Proofs CodeP3Lin CodeP3Sim CodeSignRules ApiFacts CodeWitness CodeKeysThm.
From Verif Require LowMCInj.
Import ListNotations.
Local Open Scope c_scope.

Lemma blit_whole (a b : bytes) : length a = length b -> blit_list a 0 b = b.
Proof. intros H. unfold blit_list. cbn [firstn app Nat.add]. rewrite skipn_all2 by lia. apply app_nil_r. Qed.

(** LowMCEnc of the model against words written over a block of zeros. *)
Lemma enc_block E P pt key : wfP P -> env_bytes_ok E -> constants_ok E P -> block_wf pt -> block_wf key ->
  exists o, LowMCEnc E P pt zero_block key = Ok o /\ forall o2, length o2 = 4 * stateSizeWords P -> bytes_ok o2 ->
    (forall i, bit o2 i = if i <? stateSizeBits P then lowmc_enc (lowmc_of E P) (bit key) (bit (firstn (4 * stateSizeWords P) pt)) i else false) ->
    blit_list zero_block 0 o2 = o.
Proof.
  intros Hw HE HC [Lp Bp] [Lk Bk]. pose proof Hw as []. assert (Lz : length zero_block = 32) by reflexivity.
  destruct (LowMCEnc_ex E P Hw pt zero_block key HE HC Bp Bk ltac:(apply bytes_ok_zeros) ltac:(lia) ltac:(lia) ltac:(lia)) as (o & Eo & Lo & Bo & Ho).
  exists o. split; [exact Eo|]. intros o2 L2 B2 Ho2. apply bits_ext.
  - rewrite length_blit_list; lia.
  - unfold blit_list. apply bytes_ok_app. split; [constructor|]. apply bytes_ok_app. split; [exact B2|]. apply Forall_skipn, bytes_ok_zeros.
  - exact Bo.
  - intros i Hi. rewrite bit_blit0 by lia. rewrite L2, Ho, Ho2, bit_zero_block.
    assert (V : veq (stateSizeBits P) (lowmc_enc (lowmc_of E P) (bit key) (bit (firstn (4 * stateSizeWords P) pt))) (lowmc_enc (lowmc_of E P) (bit key) (bit pt))).
    { apply (LowMCInj.lowmc_enc_ext (lowmc_of E P)); auto; [intros j Hj; reflexivity|]. intros j Hj. change (lm_n (lowmc_of E P)) with (stateSizeBits P) in Hj. apply bit_firstn. lia. }
    destruct (Nat.ltb_spec i (stateSizeBits P)) as [Hb|Hb].
    + rewrite (proj2 (Nat.ltb_lt i (8 * (4 * stateSizeWords P)))) by lia. apply V, Hb.
    + destruct (i <? 8 * _), (i <? 32 * _); reflexivity.
Qed.

Section Keygen.
Variables (U : nat -> nat -> bytes) (E : env) (p : N) (P : paramset) (rng : nat -> nat -> bool * bytes) (st : state) (q : nat -> ptr).
Hypothesis HU : locals_ok U.
Hypothesis HE : env_bytes_ok E.
Hypothesis HP : get_param_set p = Some P.
Hypothesis HC : constants_ok E P.
Hypothesis HR : rng_wf rng.
Hypothesis HM : keygen_call E P rng st q.
Let n0 := nx st.
Let m0 := mm st.
Let kl : layout := mkLayout 5 q (fun _ => 32).
Let n := stateSizeBytes P.

Record g_at (y : state) (c : nat -> bytes) : Prop := {
  ga_pv : pv y = pv st; ga_nx : nx y = n0; ga_10 : iv y 10 = iv st 10; ga_11 : iv y 11 = iv st 11; ga_hp : heap n0 m0 kl n0 (mm y) c }.

Lemma g_array y c j : g_at y c -> j < 5 -> peval (iv y) (pv y) (PV 1 (IC j)) = Some (q j).
Proof. intros A Hj. cbn [peval ieval]. rewrite (ga_pv _ _ A). apply (kg_arrays _ _ _ _ _ HM j Hj). Qed.
Lemma g_in j : j < 5 -> In (q j, 32) (arrays q 5).
Proof. intros H. unfold arrays. apply in_map_iff. exists j. split; [reflexivity|]. apply in_seq. lia. Qed.
Lemma g_nth j : j < 5 -> nth_error (arrays q 5) j = Some (q j, 32).
Proof. intros H. do 5 (destruct j as [|j]; [reflexivity|]). lia. Qed.
Lemma g_ro r l : reads st (arrays q 5) r l -> ro n0 m0 kl r l.
Proof. intros (A & _ & B). split; [exact A|]. intros k Hk. apply B, g_in, Hk. Qed.

Lemma g_start : exists c, g_at st c.
Proof.
  destruct (kg_arrays _ _ _ _ _ HM 0 ltac:(lia)) as (_ & _ & l0 & A0 & B0). destruct (kg_arrays _ _ _ _ _ HM 1 ltac:(lia)) as (_ & _ & l1 & A1 & B1).
  destruct (kg_arrays _ _ _ _ _ HM 2 ltac:(lia)) as (_ & _ & l2 & A2 & B2). destruct (kg_arrays _ _ _ _ _ HM 3 ltac:(lia)) as (_ & _ & l3 & A3 & B3).
  destruct (kg_arrays _ _ _ _ _ HM 4 ltac:(lia)) as (_ & _ & l4 & A4 & B4).
  exists (fun j => nth j [l0; l1; l2; l3; l4] []). split; auto.
  assert (X : forall j, j < 5 -> holds st (q j) (nth j [l0; l1; l2; l3; l4] []) /\ length (nth j [l0; l1; l2; l3; l4] []) = 32).
  { intros j H. do 5 (destruct j as [|j]; [split; assumption|]). lia. }
  split; cbn [kl cnt reg sz].
  - split; cbn [kl cnt reg sz]; auto; [intros k Hk; apply (X k Hk)|]. intros i j Hi Hj Hne. apply (kg_apart _ _ _ _ _ HM i j); auto; apply g_nth; auto.
  - intros k Hk. apply (X k Hk).
  - intros k Hk. apply (X k Hk).
  - intros k Hk. apply (X k Hk).
  - intros b _. auto.
Qed.

Lemma g_clear k : forall j y c (Q : state -> Prop), g_at y c -> j + k = 5 ->
  (forall z c', g_at z c' -> (forall i, j <= i < 5 -> c' i = zero_block) -> (forall i, i < j -> c' i = c i) -> (forall x, iv z x = iv y x) -> Q z) ->
  runs U (clear_arrays j k) y Q.
Proof.
  induction k as [|k IH]; intros j y c Q A Hj HQ; cbn [clear_arrays].
  - apply runs_skip. apply (HQ y c A); auto. intros i Hi. lia.
  - apply runs_seq. pose proof A as [A1 A2 A3 A4 A5].
    apply (h_memset0 n0 m0 U kl _ _ y c j); cbn [ieval kl reg cnt sz]; auto; try lia.
    + apply (g_array y c); auto. lia.
    + rewrite A2. exact A5.
    + rewrite A2. intros m' H'. apply (IH (S j) _ (cset c j zero_block)); auto; [|lia|].
      * split; unfold set_mm; cbn [iv pv mm nx]; auto.
      * intros z c' Z1 Z2 Z3 Z4. apply (HQ z c' Z1); auto.
        -- intros i Hi. destruct (Nat.eq_dec i j) as [->|Hne]; [rewrite Z3 by lia; rewrite cset_eq; reflexivity|]. apply Z2. lia.
        -- intros i Hi. rewrite Z3 by lia. rewrite cset_neq by lia. reflexivity.
Qed.

Let Hw : wfP P := get_param_set_wfP p P HP.
Lemma n_bounds : 0 < n /\ n <= 32 /\ n = numBytes (stateSizeBits P).
Proof.
  destruct (wfP_block P Hw) as [_ Hn]. pose proof (numBytes_spec (stateSizeBits P)). pose proof (wf_n P Hw). pose proof (wf_sB P Hw). unfold n. lia.
Qed.

(** Only memory changes, to [c']. *)
Lemma g_mem y c m' c' : g_at y c -> heap n0 m0 kl n0 m' c' -> g_at (set_mm y m') c'.
Proof. intros [] H. split; unfold set_mm; cbn [iv pv mm nx]; auto. Qed.

Lemma h_random y c j i (Q : state -> Prop) : g_at y c -> j < 5 -> i < 2 ->
  (forall m', g_at (set_mm y m') (cset c j (blit_list (c j) 0 (snd (rng i n)))) -> Q (set_mm y m')) -> runs U (c_random (PV 1 (IC j)) (2 + i) n) y Q.
Proof.
  intros A Hj Hi HQ. destruct (kg_rng _ _ _ _ _ HM i Hi) as (_ & r & Er & Rr). pose proof Rr as (_ & Br & Dr). fold n in Br, Dr, Rr.
  destruct (HR i n) as [Lr _]. destruct n_bounds as (N1 & N2 & _). unfold c_random.
  apply (h_memcpy_part n0 m0 U kl _ _ _ y c j r (snd (rng i n))); cbn [ieval kl reg cnt sz]; auto; try lia.
  - apply (g_array y c); auto.
  - cbn [P0 peval ieval]. rewrite (ga_pv _ _ A), Er. reflexivity.
  - intros Eq. specialize (Dr _ _ (g_in j Hj)). rewrite <- Eq in Dr. unfold disj in Dr. lia.
  - left. apply g_ro, Rr.
  - rewrite (ga_nx _ _ A). apply A.
  - rewrite (ga_nx _ _ A). intros m' H'. rewrite firstn_all2 in H' by lia. apply HQ. apply (g_mem y c); auto.
Qed.

Lemma g_zero y c j r (Q : state -> Prop) : g_at y c -> j < 5 -> zeroTrailingBits (c j) (stateSizeBits P) = Ok r ->
  (forall m', g_at (set_mm y m') (cset c j r) -> Q (set_mm y m')) -> runs U (c_zeroTrailingBits (PV 1 (IC j)) (stateSizeBits P)) y Q.
Proof.
  intros A Hj Er HQ. destruct n_bounds as (_ & N2 & N3).
  apply (h_zeroTrailingBits n0 m0 U kl _ _ y c j r); cbn [kl reg cnt sz]; auto; try lia.
  - apply (g_array y c); auto.
  - rewrite (ga_nx _ _ A). apply A.
  - rewrite (ga_nx _ _ A). intros m' H'. apply HQ. apply (g_mem y c); auto.
Qed.

Lemma g_copy y c j k (Q : state -> Prop) : g_at y c -> j < 5 -> k < 5 -> j <> k ->
  (forall m', g_at (set_mm y m') (cset c j (c k)) -> Q (set_mm y m')) -> runs U (MemCpy (PV 1 (IC j)) (PV 1 (IC k)) (IC PICNIC_MAX_LOWMC_BLOCK_SIZE)) y Q.
Proof.
  intros A Hj Hk Hne HQ. pose proof (heap_len _ _ _ _ _ _ (ga_hp _ _ A) j Hj) as Lj. pose proof (heap_len _ _ _ _ _ _ (ga_hp _ _ A) k Hk) as Lk. cbn [kl sz] in Lj, Lk.
  apply (h_memcpy_part n0 m0 U kl _ _ _ y c j (q k) (c k)); cbn [ieval kl reg cnt sz]; auto; unfold PICNIC_MAX_LOWMC_BLOCK_SIZE; try lia.
  - apply (g_array y c); auto.
  - apply (g_array y c); auto.
  - intros Eq. pose proof (kg_apart _ _ _ _ _ HM k j _ _ _ _ (g_nth k Hk) (g_nth j Hj) ltac:(auto)) as D. rewrite Eq in D. unfold disj in D. lia.
  - right. exists k. auto.
  - exact (heap_ok _ _ _ _ _ _ (ga_hp _ _ A) k Hk).
  - rewrite (ga_nx _ _ A). apply A.
  - rewrite (ga_nx _ _ A). intros m' H'. rewrite firstn_all2, blit_whole in H' by lia. apply HQ. apply (g_mem y c); auto.
Qed.

Lemma g_enc y c o (Q : state -> Prop) : g_at y c -> c 0 = zero_block -> LowMCEnc E P (c 1) zero_block (c 2) = Ok o ->
  (forall z, g_at z (cset c 0 o) -> (forall x, iv z x = iv y x) -> Q z) -> runs U (c_LowMCEnc P (PV 1 (IC 1)) (PV 1 (IC 0)) (PV 1 (IC 2)) 4 5 6) y Q.
Proof.
  intros A C0 Eo HQ. pose proof A as [A1 A2 A3 A4 H]. pose proof Hw as [].
  assert (B : forall k, k < 5 -> pts n0 (mm y) (q k) (c k) /\ length (c k) = 32 /\ bytes_ok (c k)).
  { intros k Hk. split; [exact (heap_pts _ _ _ _ _ _ H k Hk)|]. split; [exact (heap_len _ _ _ _ _ _ H k Hk)|exact (heap_ok _ _ _ _ _ _ H k Hk)]. }
  destruct (B 0 ltac:(lia)) as (P0_ & L0 & _). destruct (B 1 ltac:(lia)) as (P1 & L1 & B1). destruct (B 2 ltac:(lia)) as (P2 & L2 & B2).
  destruct (enc_block E P (c 1) (c 2) Hw HE HC (conj L1 B1) (conj L2 B2)) as (o' & Eo' & Ho). rewrite Eo in Eo'. injection Eo' as <-.
  assert (D : forall k l, k < 5 -> k <> 0 -> l <= 32 -> disj (q 0) (4 * stateSizeWords P) (q k) l).
  { intros k l Hk Hne Hl. pose proof (kg_apart _ _ _ _ _ HM 0 k _ _ _ _ (g_nth 0 ltac:(lia)) (g_nth k Hk) ltac:(auto)) as X. apply (disj_sub _ _ _ _ _ _ X); auto. }
  assert (T : forall a cn f, constants st a cn f (arrays q 5) -> table y a cn f (q 0) (4 * stateSizeWords P)).
  { intros a cn f Ha i Hi. destruct (Ha i Hi) as (r & R1 & R2 & R3). exists r. rewrite A1, A2. split; [exact R1|]. split; [exact (heap_ro _ _ _ _ _ _ _ _ H (g_ro _ _ R2))|].
    split; [exact R3|]. destruct R2 as (_ & _ & R2). apply (disj_sub _ _ _ _ _ _ (R2 _ _ (g_in 0 ltac:(lia)))); lia. }
  destruct (kg_arrays _ _ _ _ _ HM 0 ltac:(lia)) as (_ & G0 & _). destruct (kg_arrays _ _ _ _ _ HM 2 ltac:(lia)) as (_ & G2 & _).
  apply (runs_LowMCEnc U P Hw HU E _ _ _ 4 5 6 y (q 1) (q 0) (q 2) (firstn (4 * stateSizeWords P) (c 1)) (firstn (4 * stateSizeWords P) (c 0)) (c 2)); auto; try lia.
  - apply (g_array y c); auto; lia.
  - apply (g_array y c); auto; lia.
  - apply (g_array y c); auto; lia.
  - apply Forall_firstn, B1.
  - rewrite firstn_length. lia.
  - rewrite firstn_length. lia.
  - rewrite A2. apply pts_firstn, P1.
  - rewrite A2. apply pts_firstn, P0_.
  - rewrite A2. exact P2.
  - right. apply D; lia.
  - apply D; lia.
  - apply T, (kg_K _ _ _ _ _ HM).
  - apply T, (kg_L _ _ _ _ _ HM).
  - apply T, (kg_C _ _ _ _ _ HM).
  - rewrite A2. intros m' u o2 L2' B2' Ho2 P2' C2'. apply HQ; [|reflexivity]. split; unfold set_mc; cbn [iv pv mm nx]; auto.
    rewrite <- (Ho o2 L2' B2' Ho2). rewrite <- C0 at 1. apply (heap_patch n0 m0 kl n0 (mm y)); cbn [kl cnt sz reg]; auto; try lia.
    + rewrite Nat.add_0_r, <- surjective_pairing. exact P2'.
    + rewrite Nat.add_0_r, <- surjective_pairing, L2'. exact C2'.
Qed.

(** picnic_keygen of the model with the results of the calls taken apart. *)
Lemma keygen_eq pk0 sk0 : is_valid_params p = true -> picnic_keygen E rng p pk0 sk0 =
  bind (blit zero_block 0 (snd (rng 0 n))) (fun data =>
   if negb (fst (rng 0 n)) then Ok (false, mkPk p zero_block zero_block, mkSk p data zero_pk)
   else bind (zeroTrailingBits data (stateSizeBits P)) (fun data =>
        bind (blit zero_block 0 (snd (rng 1 n))) (fun pt =>
        if negb (fst (rng 1 n)) then Ok (false, mkPk p pt zero_block, mkSk p data zero_pk)
        else bind (zeroTrailingBits pt (stateSizeBits P)) (fun pt =>
             bind (LowMCEnc E P pt zero_block data) (fun ct =>
             Ok (true, mkPk p pt ct, mkSk p data (mkPk p pt ct))))))).
Proof.
  intros Vd. unfold picnic_keygen. rewrite Vd, HP. cbn [negb]. unfold n. destruct (rng 0 (stateSizeBytes P)), (rng 1 (stateSizeBytes P)). reflexivity.
Qed.

Theorem h_keygen pk0 sk0 : exists r pk sk, picnic_keygen E rng p pk0 sk0 = Ok (r, pk, sk) /\
  (r = true -> forall i, bit (sk_data sk) i = (i <? stateSizeBits P) && bit (snd (rng 0 n)) i /\ bit (pk_plaintext pk) i = (i <? stateSizeBits P) && bit (snd (rng 1 n)) i) /\
  (r = false -> pk_params pk = p /\ sk_params sk = p /\ pk_ciphertext pk = zero_block /\ sk_pk sk = zero_pk) /\
  runs U (c_keygen p P) st (fun z => nx z = nx st /\ chg (nx st) (mm st) (mm z) (arrays q 5) /\ iv z 5 = (if r then 1 else 0) /\
    iv z 7 = N.to_nat (pk_params pk) /\ iv z 8 = N.to_nat (sk_params sk) /\ iv z 9 = N.to_nat (pk_params (sk_pk sk)) /\
    forall j, j < 5 -> holds z (q j) (key_pair_array pk sk j)).
Proof.
  destruct n_bounds as (N1 & N2 & N3). destruct (get_param_set_byte _ _ HP) as [_ Vd].
  assert (F : forall z c pk sk (r : bool), g_at z c -> (forall j, j < 5 -> c j = key_pair_array pk sk j) ->
     iv z 5 = (if r then 1 else 0) -> iv z 7 = N.to_nat (pk_params pk) -> iv z 8 = N.to_nat (sk_params sk) -> iv z 9 = N.to_nat (pk_params (sk_pk sk)) ->
     nx z = nx st /\ chg (nx st) (mm st) (mm z) (arrays q 5) /\ iv z 5 = (if r then 1 else 0) /\
     iv z 7 = N.to_nat (pk_params pk) /\ iv z 8 = N.to_nat (sk_params sk) /\ iv z 9 = N.to_nat (pk_params (sk_pk sk)) /\
     forall j, j < 5 -> holds z (q j) (key_pair_array pk sk j)).
  { intros z c pk sk r Z Hc I5 I7 I8 I9. split; [apply Z|]. split; [exact (heap_chg _ _ _ _ _ _ (ga_hp _ _ Z))|]. repeat (split; [assumption|]).
    intros j Hj. rewrite <- Hc by exact Hj. unfold holds. rewrite (ga_nx _ _ Z). split; [exact (heap_pts _ _ _ _ _ _ (ga_hp _ _ Z) j Hj)|exact (heap_ok _ _ _ _ _ _ (ga_hp _ _ Z) j Hj)]. }
  destruct (HR 0 n) as [Lr0 Br0]. destruct (HR 1 n) as [Lr1 Br1].
  destruct (kg_rng _ _ _ _ _ HM 0 ltac:(lia)) as (I10 & _). destruct (kg_rng _ _ _ _ _ HM 1 ltac:(lia)) as (I11 & _). cbn [Nat.add] in I10, I11. fold n in I10, I11.
  rewrite keygen_eq by exact Vd. assert (Lz : length zero_block = 32) by reflexivity.
  assert (X : forall i, i < 2 -> exists d, zeroTrailingBits (blit_list zero_block 0 (snd (rng i n))) (stateSizeBits P) = Ok d /\ block_wf d /\ forall k, bit d k = (k <? stateSizeBits P) && bit (snd (rng i n)) k).
  { intros i Hi. destruct (HR i n) as [Lr Br].
    assert (Bd : bytes_ok (blit_list zero_block 0 (snd (rng i n)))) by (unfold blit_list; apply bytes_ok_app; split; [constructor|]; apply bytes_ok_app; split; [exact Br|apply Forall_skipn, bytes_ok_zeros]).
    assert (Ld : length (blit_list zero_block 0 (snd (rng i n))) = 32) by (rewrite length_blit_list; lia).
    pose proof (zeroTrailingBits_spec (blit_list zero_block 0 (snd (rng i n))) (stateSizeBits P) ltac:(lia)) as Z. apply ok_ex in Z. destruct Z as (d & Ed & Z1 & Z2 & Z3). exists d. split; [exact Ed|]. split; [split; [lia|auto]|].
    pose proof (numBytes_spec (stateSizeBits P)) as NS.
    intros k. rewrite Z3, bit_blit0 by lia. rewrite bit_zero_block, Lr, N3. destruct (Nat.ltb_spec k (stateSizeBits P)) as [Hk|Hk].
    - rewrite (proj2 (Nat.leb_gt _ _)) by lia. rewrite (proj2 (Nat.ltb_lt k (8 * numBytes (stateSizeBits P)))) by lia. reflexivity.
    - rewrite (proj2 (Nat.leb_le _ _)) by lia. destruct (k <? 8 * numBytes (stateSizeBits P)); reflexivity. }
  destruct (X 0 ltac:(lia)) as (d & Ed & Wd & Vd0). destruct (X 1 ltac:(lia)) as (e & Ee & We & Ve). destruct g_start as (c0 & A0).
  rewrite blit_ok by lia. cbn [bind]. rewrite Ed. cbn [bind].
  destruct (enc_block E P e d Hw HE HC We Wd) as (o & Eo & _).
  (* the program up to the first random bytes *)
  assert (Pre : forall Q, (forall y, g_at y (cset (fun _ => zero_block) 2 (blit_list zero_block 0 (snd (rng 0 n)))) -> iv y 5 = 0 -> iv y 7 = N.to_nat p -> iv y 8 = N.to_nat p -> iv y 9 = 0 ->
     runs U (If (CEq (IV 10) (IC 0)) Skip
    (c_zeroTrailingBits (PV 1 (IC 2)) (stateSizeBits P) ;;
     c_random (PV 1 (IC 1)) 3 (stateSizeBytes P) ;;
     If (CEq (IV 11) (IC 0)) Skip
       (c_zeroTrailingBits (PV 1 (IC 1)) (stateSizeBits P) ;;
        c_LowMCEnc P (PV 1 (IC 1)) (PV 1 (IC 0)) (PV 1 (IC 2)) 4 5 6 ;;
        MemCpy (PV 1 (IC 3)) (PV 1 (IC 0)) (IC PICNIC_MAX_LOWMC_BLOCK_SIZE) ;;
        MemCpy (PV 1 (IC 4)) (PV 1 (IC 1)) (IC PICNIC_MAX_LOWMC_BLOCK_SIZE) ;;
        ISet 9 (IV 7) ;;
        ISet 5 (IC 1)))) y Q) -> runs U (c_keygen p P) st Q).
  { intros Q HQ. unfold c_keygen. apply runs_seq, runs_iset. apply runs_seq. apply (g_clear 5 0 _ c0); [destruct A0; split; auto|reflexivity|].
    intros z c' Z1 Z2 _ Z4. do 5 apply runs_seq, runs_iset. apply runs_seq. unfold set_iv. cbn [iv dv pv mm nx ct ieval].
    apply (h_random _ (fun _ => zero_block) 2 0); try lia.
    - destruct Z1. split; cbn [iv dv pv mm nx ct upd Nat.eqb]; auto. apply (heap_ext _ _ _ _ _ _ _ ga_hp0). intros k Hk. symmetry. apply Z2. cbn [kl cnt] in Hk. lia.
    - intros m' G. apply HQ; [exact G| | | |]; unfold set_mm; cbn [iv upd Nat.eqb]; auto. rewrite Z4. reflexivity. }
  destruct (fst (rng 0 n)); cbn [negb].
  2:{ do 3 eexists. split; [reflexivity|]. split; [discriminate|]. split; [intros _; repeat split|]. apply Pre. intros y A I5 I7 I8 I9. eapply runs_if; [cbn [ceval ieval]; rewrite (ga_10 _ _ A), I10; reflexivity|]. apply runs_skip.
      apply (F y _ (mkPk p zero_block zero_block) (mkSk p (blit_list zero_block 0 (snd (rng 0 n))) zero_pk) false A); auto. intros j Hj. do 5 (destruct j as [|j]; [reflexivity|]). lia. }
  rewrite blit_ok by lia. cbn [bind].
  assert (Mid : forall Q, (forall y, g_at y (cset (cset (fun _ => zero_block) 2 d) 1 (blit_list zero_block 0 (snd (rng 1 n)))) -> iv y 5 = 0 -> iv y 7 = N.to_nat p -> iv y 8 = N.to_nat p -> iv y 9 = 0 ->
     runs U (If (CEq (IV 11) (IC 0)) Skip
       (c_zeroTrailingBits (PV 1 (IC 1)) (stateSizeBits P) ;;
        c_LowMCEnc P (PV 1 (IC 1)) (PV 1 (IC 0)) (PV 1 (IC 2)) 4 5 6 ;;
        MemCpy (PV 1 (IC 3)) (PV 1 (IC 0)) (IC PICNIC_MAX_LOWMC_BLOCK_SIZE) ;;
        MemCpy (PV 1 (IC 4)) (PV 1 (IC 1)) (IC PICNIC_MAX_LOWMC_BLOCK_SIZE) ;;
        ISet 9 (IV 7) ;;
        ISet 5 (IC 1))) y Q) -> runs U (c_keygen p P) st Q).
  { intros Q HQ. apply Pre. intros y A I5 I7 I8 I9. eapply runs_if; [cbn [ceval ieval]; rewrite (ga_10 _ _ A), I10; reflexivity|]. cbn [Nat.eqb].
    apply runs_seq. apply (g_zero y _ 2 d _ A); [lia|exact Ed|]. intros m1 G1. apply runs_seq. apply (h_random _ _ 1 1 _ G1); try lia. intros m2 G2. apply HQ; auto.
    destruct G2. split; auto. apply (heap_ext _ _ _ _ _ _ _ ga_hp0). intros k Hk. cbn [kl cnt] in Hk. do 5 (destruct k as [|k]; [reflexivity|]). lia. }
  destruct (fst (rng 1 n)); cbn [negb].
  2:{ do 3 eexists. split; [reflexivity|]. split; [discriminate|]. split; [intros _; repeat split|]. apply Mid. intros y A I5 I7 I8 I9. eapply runs_if; [cbn [ceval ieval]; rewrite (ga_11 _ _ A), I11; reflexivity|]. apply runs_skip.
      apply (F y _ (mkPk p (blit_list zero_block 0 (snd (rng 1 n))) zero_block) (mkSk p d zero_pk) false A); auto. intros j Hj. do 5 (destruct j as [|j]; [reflexivity|]). lia. }
  rewrite Ee. cbn [bind]. rewrite Eo. cbn [bind]. do 3 eexists. split; [reflexivity|]. split; [intros _ i; split; [apply Vd0|apply Ve]|]. split; [discriminate|].
  apply Mid. intros y A I5 I7 I8 I9. eapply runs_if; [cbn [ceval ieval]; rewrite (ga_11 _ _ A), I11; reflexivity|]. cbn [Nat.eqb].
  apply runs_seq. apply (g_zero y _ 1 e _ A); [lia|exact Ee|]. intros m1 G1. apply runs_seq. apply (g_enc _ _ o _ G1); [reflexivity|exact Eo|].
  intros z Z1 Z2. apply runs_seq. apply (g_copy _ _ 3 0 _ Z1); try lia. intros m3 G3. apply runs_seq. apply (g_copy _ _ 4 1 _ G3); try lia. intros m4 G4.
  apply runs_seq, runs_iset, runs_iset. eapply (F _ _ (mkPk p e o) (mkSk p d (mkPk p e o)) true); unfold set_iv, set_mm in *; cbn [iv pv mm nx dv ct upd Nat.eqb ieval] in *.
  - destruct G4. split; cbn [iv pv mm nx dv ct upd Nat.eqb ieval] in *; eauto.
  - intros j Hj. do 5 (destruct j as [|j]; [reflexivity|]). lia.
  - reflexivity.
  - rewrite Z2. exact I7.
  - rewrite Z2. exact I8.
  - rewrite Z2. exact I7.
Qed.
End Keygen.

Theorem keygen_code_is U E p P rng st q : locals_ok U -> env_bytes_ok E -> get_param_set p = Some P -> constants_ok E P -> rng_wf rng ->
  keygen_call E P rng st q ->
  exists st' t pk sk, run U (c_keygen p P) st = Some (st', t) /\ nx st' = nx st /\ chg (nx st) (mm st) (mm st') (arrays q 5) /\
    iv st' 7 = N.to_nat (pk_params pk) /\ iv st' 8 = N.to_nat (sk_params sk) /\ iv st' 9 = N.to_nat (pk_params (sk_pk sk)) /\
    (forall j, j < 5 -> holds st' (q j) (key_pair_array pk sk j)) /\
    iv st' 5 = (if fst (rng 0 (stateSizeBytes P)) && fst (rng 1 (stateSizeBytes P)) then 1 else 0) /\
    (iv st' 5 = 1 -> pk_params pk = p /\ sk_params sk = p /\ sk_pk sk = pk /\ sk_wf sk /\ pk_wf pk /\
       lowmc_relation E P (sk_data sk) (pk_plaintext pk) (pk_ciphertext pk) /\
       forall i, bit (sk_data sk) i = (i <? stateSizeBits P) && bit (snd (rng 0 (stateSizeBytes P))) i /\
                 bit (pk_plaintext pk) i = (i <? stateSizeBits P) && bit (snd (rng 1 (stateSizeBytes P))) i) /\
    (iv st' 5 = 0 -> pk_params pk = p /\ sk_params sk = p /\ pk_ciphertext pk = zeros 32 /\ sk_pk sk = mkPk 0 (zeros 32) (zeros 32)).
Proof.
  intros HU HE HP HC HR HM. destruct (h_keygen U E p P rng st q HU HE HP HC HR HM zero_pk zero_sk) as (r & pk & sk & E1 & B & B' & R).
  unfold runs in R. destruct (run U (c_keygen p P) st) as [[z t]|] eqn:R1; [|destruct R]. destruct R as (R2 & R3 & R4 & R5 & R6 & R7 & R8).
  assert (HC' : forall P', get_param_set p = Some P' -> constants_ok E P') by (intros P' H; rewrite HP in H; injection H as <-; exact HC).
  pose proof (keygen_spec E HE rng p zero_pk zero_sk HC' HR) as S. rewrite E1 in S. cbn [ok] in S. rewrite HP in S. destruct S as [S1 S2].
  exists z, t, pk, sk. split; [reflexivity|]. split; [exact R2|]. split; [exact R3|]. split; [exact R5|]. split; [exact R6|]. split; [exact R7|]. split; [exact R8|].
  rewrite <- S1. split; [exact R4|]. split; [|intros I5; apply B'; destruct r; [rewrite R4 in I5; discriminate I5|reflexivity]]. intros I5. destruct r; [|rewrite R4 in I5; discriminate I5].
  destruct (S2 eq_refl) as (P' & HP' & T1 & T2 & T3 & T4 & T5 & T6 & _). injection HP' as <-. auto 9.
Qed.

(** A memory: the five arrays, the bytes of the two calls and the tables of LowMC in blocks of their own. *)
Definition keygen_memory (E : env) (P : paramset) (rng : nat -> nat -> bool * bytes) (l : nat -> bytes) : memory := fun b =>
  let R := numRounds P in
  if b <? 5 then l b else if b <? 7 then snd (rng (b - 5) (stateSizeBytes P)) else
  if b <? 7 + (R + 1) then KMatrix E P (b - 7) else if b <? 7 + (R + 1 + R) then LMatrix E P (b - (7 + (R + 1))) else
  if b <? 7 + (R + 1 + R + R) then RConstant E P (b - (7 + (R + 1 + R))) else [].
Definition keygen_state (E : env) (P : paramset) (rng : nat -> nat -> bool * bytes) (l : nat -> bytes) : state :=
  let R := numRounds P in
  mkState (fun x => if fst (rng (x - 10) (stateSizeBytes P)) then 1 else 0) (fun _ => 0%N)
    (args [] [[]; places 0 5; [(5, 0)]; [(6, 0)]; places 7 (R + 1); places (7 + (R + 1)) R; places (7 + (R + 1 + R)) R])
    (keygen_memory E P rng l) (7 + (R + 1 + R + R)) 0.
Lemma keygen_called E P rng l : constants_ok E P -> rng_wf rng -> (forall j, j < 5 -> length (l j) = 32 /\ bytes_ok (l j)) ->
  keygen_call E P rng (keygen_state E P rng l) (fun j => (j, 0)).
Proof.
  intros (BK & BL & BR) HR Hl. unfold keygen_state. set (R := numRounds P) in *.
  assert (Out : forall b, 5 <= b -> forall q k, In (q, k) (arrays (fun j => (j, 0)) 5) -> forall n, disj q k (b, 0) n).
  { intros b Hb q k X n. unfold arrays in X. apply in_map_iff in X. destruct X as (j & X & Hj). injection X as <- <-. apply in_seq in Hj. left. cbn [fst]. lia. }
  assert (Out' : forall b, 5 <= b -> forall q k, In (q, k) (arrays (fun j => (j, 0)) 5) -> forall n, disj (b, 0) n q k).
  { intros b Hb q k X n. unfold arrays in X. apply in_map_iff in X. destruct X as (j & X & Hj). injection X as <- <-. apply in_seq in Hj. left. cbn [fst]. lia. }
  split; cbn [iv pv args nth].
  - intros i j p1 k1 p2 k2 E1 E2 Hne. do 5 (destruct i as [|i]; [injection E1 as <- _; do 5 (destruct j as [|j]; [injection E2 as <- _; left; cbn [fst]; lia|]); destruct j; discriminate E2|]). destruct i; discriminate E1.
  - intros j Hj. split; [apply (nth_places 0), Hj|]. split; [reflexivity|]. exists (l j). destruct (Hl j Hj) as [L B]. split; [|exact L]. split; [|exact B]. apply pts_block; cbn [nx mm]; [lia|].
    unfold keygen_memory. rewrite (proj2 (Nat.ltb_lt j 5)) by lia. reflexivity.
  - intros i Hi. split; [replace (10 + i - 10) with i by lia; reflexivity|]. exists (5 + i, 0). split; [do 2 (destruct i as [|i]; [reflexivity|]); lia|].
    split; [apply pts_block; cbn [nx mm]; [lia|]|split; [apply HR|intros q k X; auto]].
    2:{ apply Out; auto; lia. }
    unfold keygen_memory. rewrite (proj2 (Nat.ltb_ge (5 + i) 5)) by lia. rewrite (proj2 (Nat.ltb_lt (5 + i) 7)) by lia. replace (5 + i - 5) with i by lia. reflexivity.
  - intros i Hi. exists (7 + i, 0). split; [apply nth_places, Hi|]. split; [|reflexivity]. split; [apply pts_block; cbn [nx mm]; [fold R in Hi; lia|]|split; [apply BK; fold R in Hi; lia|intros q k X; apply Out; auto; lia]].
    fold R in Hi. unfold keygen_memory. fold R. rewrite (proj2 (Nat.ltb_ge (7 + i) 5)), (proj2 (Nat.ltb_ge (7 + i) 7)) by lia. rewrite (proj2 (Nat.ltb_lt (7 + i) (7 + (R + 1)))) by lia. f_equal. lia.
  - intros i Hi. exists (7 + (R + 1) + i, 0). split; [apply nth_places, Hi|]. split; [|reflexivity]. split; [apply pts_block; cbn [nx mm]; [fold R in Hi; lia|]|split; [apply BL; fold R in Hi; lia|intros q k X; apply Out; auto; lia]].
    fold R in Hi. unfold keygen_memory. fold R. rewrite (proj2 (Nat.ltb_ge (7 + (R + 1) + i) 5)), (proj2 (Nat.ltb_ge (7 + (R + 1) + i) 7)), (proj2 (Nat.ltb_ge (7 + (R + 1) + i) (7 + (R + 1)))) by lia.
    rewrite (proj2 (Nat.ltb_lt (7 + (R + 1) + i) (7 + (R + 1 + R)))) by lia. f_equal. lia.
  - intros i Hi. exists (7 + (R + 1 + R) + i, 0). split; [apply nth_places, Hi|]. split; [|reflexivity]. split; [apply pts_block; cbn [nx mm]; [fold R in Hi; lia|]|split; [apply BR; fold R in Hi; lia|intros q k X; apply Out; auto; lia]].
    fold R in Hi. unfold keygen_memory. fold R. rewrite (proj2 (Nat.ltb_ge (7 + (R + 1 + R) + i) 5)), (proj2 (Nat.ltb_ge (7 + (R + 1 + R) + i) 7)), (proj2 (Nat.ltb_ge (7 + (R + 1 + R) + i) (7 + (R + 1)))) by lia.
    rewrite (proj2 (Nat.ltb_ge (7 + (R + 1 + R) + i) (7 + (R + 1 + R)))) by lia. rewrite (proj2 (Nat.ltb_lt (7 + (R + 1 + R) + i) (7 + (R + 1 + R + R)))) by lia. f_equal. lia.
Qed.

(** The pair is accepted by picnic_validate_keypair on any other memory. *)
Theorem keygen_validate_code U E p P rng st q : locals_ok U -> env_bytes_ok E -> get_param_set p = Some P -> constants_ok E P -> rng_wf rng ->
  keygen_call E P rng st q -> fst (rng 0 (stateSizeBytes P)) = true -> fst (rng 1 (stateSizeBytes P)) = true ->
  exists st' t pk sk, run U (c_keygen p P) st = Some (st', t) /\ iv st' 5 = 1 /\
    iv st' 7 = N.to_nat (pk_params pk) /\ iv st' 8 = N.to_nat (sk_params sk) /\ (forall j, j < 5 -> holds st' (q j) (key_pair_array pk sk j)) /\
    forall U2 st2, locals_ok U2 -> validate_call E P st2 sk pk ->
    exists st2' t2, run U2 (c_validate P) st2 = Some (st2', t2) /\ iv st2' 5 = 1.
Proof.
  intros HU HE HP HC HR HM F0 F1. destruct (keygen_code_is U E p P rng st q HU HE HP HC HR HM) as (z & t & pk & sk & R1 & _ & _ & R7 & R8 & _ & RA & R5 & R).
  rewrite F0, F1 in R5. cbn [andb] in R5. destruct R as [R _]. destruct (R R5) as (T1 & T2 & _ & T4 & T5 & T6 & _). exists z, t, pk, sk. repeat (split; [assumption|]).
  intros U2 st2 HU2 HV. destruct (validate_code_is U2 E P st2 sk pk HU2 HE ltac:(rewrite T1; exact HP) HC T4 T5 HV) as (z2 & t2 & V1 & _ & _ & _ & V).
  exists z2, t2. split; [exact V1|]. apply V. split; [congruence|exact T6].
Qed.
