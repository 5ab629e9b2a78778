(** Keys to and from bytes on memory. *)

From Coq Require Import List NArith Arith Bool Lia ZifyBool ZifyNat ZifyN.
From Verif Require Import Base Params Env Spec LowMC MiniC CodeLowMC CodeSpec CodeZkbSpec CodeP3 CodeDeserialize CodeKeys CodeKeysSpec
  Api ApiSpec BaseFacts ParamFacts MiniCFacts CodeRules LowMCFacts CodeLowMCProofs CodeHeap CodeP3Proofs CodeP3Lin CodeP3Sim ApiFacts CodeDeserializeProofs.
From Verif Require CodeSpongeProofs LowMCInj.
Import ListNotations.
Local Open Scope c_scope.

Lemma skipn_S_of {A} j : forall (l : list A) x r, skipn j l = x :: r -> skipn (S j) l = r.
Proof. induction j as [|j IH]; intros [|y l] x r E; cbn in E; try discriminate E; [injection E as _ E; exact E|exact (IH l x r E)]. Qed.

Section Write.
Variables (U : nat -> nat -> bytes) (st : state) (qb : ptr) (buf : bytes) (len : nat) (ls : list bytes) (n : nat).
Hypothesis HM : write_call st qb buf len ls.
Hypothesis Hn : 0 < n.
Hypothesis Hls : forall j l, nth_error ls j = Some l -> n <= length l.
Let n0 := nx st.
Let m0 := mm st.
Let ol : layout := mkLayout 1 (fun _ => qb) (fun _ => length buf).

Record w_at (y : state) (b : bytes) : Prop := { wa_pv : pv y = pv st; wa_nx : nx y = n0; wa_hp : heap n0 m0 ol n0 (mm y) (fun _ => b) }.

Lemma w_start : w_at st buf.
Proof.
  destruct (wk_buf _ _ _ _ _ HM) as (_ & [A B] & _). split; auto. split; cbn [ol cnt reg sz]; auto.
  - split; cbn [ol cnt reg sz]; auto; [intros; apply A|intros; lia].
  - intros b _. auto.
Qed.

(** The arrays from [j] on, written one after the other. *)
Fixpoint put_all (b : bytes) (j : nat) (l : list bytes) : bytes :=
  match l with [] => b | x :: r => put_all (blit_list b (1 + j * n) (firstn n x)) (S j) r end.

Lemma h_copy y b j x (Q : state -> Prop) : w_at y b -> nth_error ls j = Some x -> 1 + j * n + n <= length buf ->
  (forall z, w_at z (blit_list b (1 + j * n) (firstn n x)) -> Q z) ->
  runs U (MemCpy (PAdd (P0 0) (IC (1 + j * n))) (PV 1 (IC j)) (IC n)) y Q.
Proof.
  intros [A1 A2 A3] Ej Hl HQ. destruct (wk_arrays _ _ _ _ _ HM j x Ej) as (p & Ep & R1 & R2 & R3). pose proof (Hls j x Ej) as Lx.
  pose proof (heap_pts _ _ _ _ _ _ A3 0 ltac:(cbn; lia)) as P1. cbn [ol reg] in P1. pose proof (heap_len _ _ _ _ _ _ A3 0 ltac:(cbn; lia)) as Lb. cbn [ol sz] in Lb.
  assert (D : disj qb (length buf) p (length x)) by (apply R3; left; reflexivity).
  assert (R : ro n0 m0 ol p x) by (split; [exact R1|intros k _; exact D]). pose proof (heap_ro _ _ _ _ _ _ _ _ A3 R) as P2.
  pose proof (pts_bound _ _ _ _ P1 ltac:(intros Hc; rewrite Hc in Lb; cbn in Lb; lia)) as Bd.
  set (d := (fst qb, snd qb + (1 + j * n))).
  eapply (runs_memcpy U _ _ _ d p); cbn [ieval].
  - cbn [P0 peval ieval]. rewrite A1, (proj1 (wk_buf _ _ _ _ _ HM)). cbn [nth_error]. rewrite (surjective_pairing qb) at 1. reflexivity.
  - cbn [peval ieval]. rewrite A1. exact Ep.
  - unfold d, valid. cbn [fst snd]. rewrite Nat.mod_1_r. apply andb_true_iff. split; [apply Nat.leb_le; lia|reflexivity].
  - apply (pts_valid n0 _ _ x); auto; lia.
  - unfold d, separate, disj in *. cbn [fst snd]. lia.
  - rewrite (rdmem_pts n0 _ _ x) by (auto; lia). assert (Lf : length (firstn n x) = n) by (rewrite firstn_length; lia).
    destruct (wrmem_pts n0 (mm y) d (firstn n x)) as [D1 D2].
    + apply P1.
    + rewrite Lf. unfold d. cbn [fst snd]. lia.
    + apply HQ. split; unfold set_mm; cbn [pv nx mm]; auto.
      apply (heap_ext _ _ _ _ _ (cset (fun _ => b) 0 (blit_list b (1 + j * n) (firstn n x)))).
      * apply (heap_patch n0 m0 ol n0 (mm y)); auto; cbn [ol cnt sz reg]; try (apply Forall_firstn, R2); rewrite ?Lf; lia.
      * intros k Hk. cbn [ol cnt] in Hk. replace k with 0 by lia. rewrite cset_eq. reflexivity.
Qed.

Lemma h_copies r : forall j y b (Q : state -> Prop), w_at y b -> skipn j ls = r -> 1 + (j + length r) * n <= length buf ->
  (forall z, w_at z (put_all b j r) -> Q z) -> runs U (copies_out n j (length r)) y Q.
Proof.
  induction r as [|x r IH]; intros j y b Q A Es Hl HQ; cbn [length copies_out put_all] in *.
  - apply runs_skip. auto.
  - assert (Ej : nth_error ls j = Some x) by (rewrite <- (firstn_skipn j ls), nth_error_app2 by (rewrite firstn_length; lia); rewrite Es, firstn_length;
      replace (j - Nat.min j (length ls)) with 0; [reflexivity|]; destruct (Nat.le_gt_cases j (length ls)); [lia|]; rewrite skipn_all2 in Es by lia; discriminate Es).
    apply runs_seq. apply (h_copy y b j x); auto; [nia|]. intros z Hz. apply (IH (S j) z (blit_list b (1 + j * n) (firstn n x))); auto; [|lia].
    apply (skipn_S_of j ls x r Es).
Qed.

Lemma h_write p P : stateSizeBytes P = n ->
  runs U (c_write_key p P (length ls)) st (fun z => nx z = n0 /\ chg n0 m0 (mm z) [(qb, length buf)] /\
    exists b, holds z qb b /\ if len <? 1 + length ls * n then b = buf /\ iv z 5 = 0
      else b = put_all (list_set buf 0 (N.modulo p 256)) 0 ls /\ iv z 5 = 1 + length ls * n).
Proof.
  intros HP. unfold c_write_key. rewrite HP. pose proof w_start as A0. destruct (wk_buf _ _ _ _ _ HM) as (Eb & _ & Hb).
  assert (F : forall z b, w_at z b -> nx z = n0 /\ chg n0 m0 (mm z) [(qb, length buf)] /\ holds z qb b).
  { intros z b [Z1 Z2 Z3]. split; [exact Z2|]. split; [exact (heap_chg _ _ _ _ _ _ Z3)|]. unfold holds. rewrite Z2. split; [exact (heap_pts _ _ _ _ _ _ Z3 0 ltac:(cbn; lia))|exact (heap_ok _ _ _ _ _ _ Z3 0 ltac:(cbn; lia))]. }
  eapply runs_if; [cbn [ceval ieval]; rewrite (wk_len _ _ _ _ _ HM); reflexivity|]. destruct (Nat.ltb_spec len (1 + length ls * n)) as [Hl|Hl].
  - apply runs_iset. destruct (F (set_iv st (upd (iv st) 5 (ieval (iv st) (IC 0)))) buf) as (F1 & F2 & F3); [destruct A0; split; auto|].
    split; [exact F1|]. split; [exact F2|]. exists buf. auto.
  - apply runs_seq. apply (h_st1 n0 m0 U ol _ _ st (fun _ => buf) 0 0 qb); cbn [ol cnt sz reg]; auto; try lia; [apply A0| |].
    + cbn [P0 peval ieval]. rewrite Eb. cbn [nth_error]. rewrite Nat.add_0_r, <- surjective_pairing. reflexivity.
    + intros m1 H1. cbn [deval] in H1. apply runs_seq. apply (h_copies ls 0 _ (list_set buf 0 (N.modulo p 256))); [|reflexivity|lia|].
      * split; unfold set_mm; cbn [pv nx mm]; auto. apply (heap_ext _ _ _ _ _ _ _ H1). intros k Hk. cbn [ol cnt] in Hk. replace k with 0 by lia. rewrite cset_eq. reflexivity.
      * intros z Hz. apply runs_iset. destruct (F (set_iv z (upd (iv z) 5 (ieval (iv z) (IC (1 + length ls * n))))) _ ltac:(destruct Hz; split; eauto)) as (F1 & F2 & F3).
        split; [exact F1|]. split; [exact F2|]. eexists. split; [exact F3|]. split; [reflexivity|]. unfold set_iv. cbn [iv]. rewrite upd_eq. reflexivity.
Qed.
End Write.

Theorem write_public_key_code U P st qb buf len key : get_param_set (pk_params key) = Some P -> pk_wf key ->
  write_call st qb buf len [pk_ciphertext key; pk_plaintext key] ->
  exists st' t r b, run U (c_write_key (pk_params key) P 2) st = Some (st', t) /\ nx st' = nx st /\ chg (nx st) (mm st) (mm st') [(qb, length buf)] /\
    picnic_write_public_key (Some key) (Some buf) len = Ok (r, Some b) /\ holds st' qb b /\ iv st' 5 = match r with Some k => k | None => 0 end.
Proof.
  intros HP [[W1 _] [W2 _]] HM. pose proof (get_param_set_wfP _ _ HP) as Hw. destruct (wfP_block P Hw) as [_ Hn].
  assert (Pn : 0 < stateSizeBytes P). { rewrite (wf_sB P Hw). pose proof (numBytes_spec (stateSizeBits P)). pose proof (wf_n P Hw). lia. }
  destruct (wk_buf _ _ _ _ _ HM) as (_ & _ & Hb).
  pose proof (h_write U st qb buf len [pk_ciphertext key; pk_plaintext key] (stateSizeBytes P) HM Pn) as X.
  specialize (X ltac:(intros [|[|[|j]]] l E; try discriminate E; injection E as <-; lia) (pk_params key) P eq_refl).
  cbn [length] in X. unfold runs in X. destruct (run _ _ st) as [[z t]|]; [|contradiction]. destruct X as (X1 & X2 & b & X3 & X4).
  unfold picnic_write_public_key. rewrite HP. destruct (len <? 1 + 2 * stateSizeBytes P) eqn:El.
  - destruct X4 as [-> X4]. exists z, t, None, buf. auto 7.
  - apply Nat.ltb_ge in El. destruct X4 as [-> X4]. exists z, t, (Some (1 + 2 * stateSizeBytes P)). eexists. split; [reflexivity|]. split; [exact X1|]. split; [exact X2|].
    split; [|split; [exact X3|exact X4]].
    rewrite wr_ok by lia. cbn [bind]. rewrite !slice0_ok by lia. cbn [bind]. rewrite blit_ok by (rewrite length_list_set, firstn_length; lia). cbn [bind].
    rewrite blit_ok by (rewrite length_blit_list, length_list_set; rewrite ?length_list_set, !firstn_length; lia). cbn [bind put_all]. rewrite Nat.mul_0_l, Nat.add_0_r, Nat.mul_1_l. reflexivity.
Qed.

Theorem write_private_key_code U P st qb buf len key : get_param_set (sk_params key) = Some P -> sk_wf key ->
  write_call st qb buf len [sk_data key; pk_ciphertext (sk_pk key); pk_plaintext (sk_pk key)] ->
  exists st' t r b, run U (c_write_key (sk_params key) P 3) st = Some (st', t) /\ nx st' = nx st /\ chg (nx st) (mm st) (mm st') [(qb, length buf)] /\
    picnic_write_private_key (Some key) (Some buf) len = Ok (r, Some b) /\ holds st' qb b /\ iv st' 5 = match r with Some k => k | None => 0 end.
Proof.
  intros HP [[W0 _] [[W1 _] [W2 _]]] HM. pose proof (get_param_set_wfP _ _ HP) as Hw. destruct (wfP_block P Hw) as [_ Hn].
  assert (Pn : 0 < stateSizeBytes P). { rewrite (wf_sB P Hw). pose proof (numBytes_spec (stateSizeBits P)). pose proof (wf_n P Hw). lia. }
  destruct (wk_buf _ _ _ _ _ HM) as (_ & _ & Hb).
  pose proof (h_write U st qb buf len [sk_data key; pk_ciphertext (sk_pk key); pk_plaintext (sk_pk key)] (stateSizeBytes P) HM Pn) as X.
  specialize (X ltac:(intros [|[|[|[|j]]]] l E; try discriminate E; injection E as <-; lia) (sk_params key) P eq_refl).
  cbn [length] in X. unfold runs in X. destruct (run _ _ st) as [[z t]|]; [|contradiction]. destruct X as (X1 & X2 & b & X3 & X4).
  unfold picnic_write_private_key. rewrite HP. destruct (len <? 1 + 3 * stateSizeBytes P) eqn:El.
  - destruct X4 as [-> X4]. exists z, t, None, buf. auto 7.
  - apply Nat.ltb_ge in El. destruct X4 as [-> X4]. exists z, t, (Some (1 + 3 * stateSizeBytes P)). eexists. split; [reflexivity|]. split; [exact X1|]. split; [exact X2|].
    split; [|split; [exact X3|exact X4]].
    rewrite wr_ok by lia. cbn [bind]. rewrite !slice0_ok by lia. cbn [bind]. rewrite blit_ok by (rewrite length_list_set, firstn_length; lia). cbn [bind].
    assert (L1 : length (list_set buf 0 (N.modulo (sk_params key) 256)) = length buf) by apply length_list_set.
    assert (L2 : length (blit_list (list_set buf 0 (N.modulo (sk_params key) 256)) 1 (firstn (stateSizeBytes P) (sk_data key))) = length buf) by (rewrite length_blit_list; rewrite ?firstn_length; lia).
    rewrite blit_ok by (rewrite L2, firstn_length; lia). cbn [bind].
    rewrite blit_ok by (rewrite length_blit_list; rewrite ?L2, !firstn_length; lia). cbn [bind put_all]. rewrite Nat.mul_0_l, Nat.add_0_r, Nat.mul_1_l. reflexivity.
Qed.

(** The result of arePaddingBitsZero. *)
Definition padb (P : paramset) (x : bytes) : bool := match arePaddingBitsZero x (stateSizeBits P) with Ok v => v | _ => false end.
Lemma padb_ok P x : wfP P -> length x = 32 -> arePaddingBitsZero x (stateSizeBits P) = Ok (padb P x).
Proof. intros Hw L. destruct (wfP_block P Hw) as [_ Hn]. destruct (arePaddingBitsZero_P P x Hw ltac:(lia)) as (v & E & _). unfold padb. rewrite E. reflexivity. Qed.

Section Read.
Variables (U : nat -> nat -> bytes) (st : state) (q : nat -> ptr) (qb : ptr) (buf : bytes) (ls : list bytes).
Hypothesis HM : read_call st q qb buf ls.
Hypothesis Hls : forall j l, nth_error ls j = Some l -> length l = 32.
Let m := length ls.
Let n0 := nx st.
Let m0 := mm st.
Let kl : layout := mkLayout m q (fun _ => 32).

Record k_at (y : state) (c : nat -> bytes) : Prop := { ka_pv : pv y = pv st; ka_nx : nx y = n0; ka_len : iv y 0 = length buf; ka_hp : heap n0 m0 kl n0 (mm y) c }.

Lemma in_arrays j : j < m -> In (q j, 32) (arrays q m).
Proof. intros H. unfold arrays. apply in_map_iff. exists j. split; [reflexivity|]. apply in_seq. lia. Qed.
Lemma nth_arrays j : j < m -> nth_error (arrays q m) j = Some (q j, 32).
Proof. intros H. unfold arrays. rewrite nth_error_map. rewrite (nth_error_nth' (seq 0 m) j 0) by (rewrite seq_length; lia). rewrite seq_nth by lia. reflexivity. Qed.
Lemma ls_nth j : j < m -> nth_error ls j = Some (nth j ls []).
Proof. intros H. apply nth_error_nth'. exact H. Qed.

Lemma k_start : k_at st (fun j => nth j ls []).
Proof.
  split; auto; [apply (rk_len _ _ _ _ _ HM)|].
  assert (X : forall j, j < m -> nth_error (pv st 1) j = Some (q j) /\ holds st (q j) (nth j ls [])) by (intros j Hj; apply (rk_arrays _ _ _ _ _ HM j), ls_nth, Hj).
  split; cbn [kl cnt reg sz].
  - split; cbn [kl cnt reg sz]; auto; [intros k Hk; apply (X k Hk)|]. intros i j Hi Hj Hne. apply (rk_apart _ _ _ _ _ HM i j); auto; apply nth_arrays; auto.
  - intros k Hk. apply (X k Hk).
  - intros k Hk. apply (Hls k), ls_nth, Hk.
  - intros k Hk. apply (X k Hk).
  - intros b _. auto.
Qed.
Lemma ro_kbuf : ro n0 m0 kl qb buf.
Proof. destruct (rk_buf _ _ _ _ _ HM) as [_ (A & _ & B)]. split; [exact A|]. intros k Hk. apply B. apply in_arrays. exact Hk. Qed.
Lemma array_eval y c j : k_at y c -> j < m -> peval (iv y) (pv y) (PV 1 (IC j)) = Some (q j).
Proof. intros A Hj. cbn [peval ieval]. rewrite (ka_pv _ _ A). apply (rk_arrays _ _ _ _ _ HM j _ (ls_nth j Hj)). Qed.

(** What is copied. *)
Definition got (n j : nat) : bytes := firstn n (skipn (1 + j * n) buf).
Lemma h_copies_in n k : forall j y c (Q : state -> Prop), k_at y c -> j + k = m -> 0 < n -> n <= 32 -> 1 + m * n <= length buf ->
  (forall z c', k_at z c' -> (forall i, j <= i < m -> c' i = blit_list (c i) 0 (got n i)) -> (forall i, i < j -> c' i = c i) -> (forall x, iv z x = iv y x) -> Q z) ->
  runs U (copies_in n j k) y Q.
Proof.
  induction k as [|k IH]; intros j y c Q A Hj Pn Hn Hl HQ; cbn [copies_in].
  - apply runs_skip. apply (HQ y c A); auto. intros i Hi. lia.
  - apply runs_seq. destruct ro_kbuf as [R1 R2]. assert (Ho : 1 + j * n + n <= length buf) by nia. set (o := 1 + j * n) in *.
    set (p := (fst qb, snd qb + o)). pose proof A as [A1 A2 A3 A4].
    assert (R : ro n0 m0 kl p (skipn o buf)).
    { split; [apply pts_skip; [exact R1|lia]|]. intros i Hi. specialize (R2 i Hi). unfold disj, p in *. cbn [fst snd]. rewrite skipn_length. lia. }
    apply (h_memcpy_part n0 m0 U kl _ _ _ y c j p (skipn o buf)); cbn [ieval kl reg cnt sz]; auto; try lia.
    + apply (array_eval y c); auto. lia.
    + cbn [P0 peval ieval]. rewrite A1, (proj1 (rk_buf _ _ _ _ _ HM)). cbn [nth_error]. rewrite (surjective_pairing qb) at 1. reflexivity.
    + intros Eq. destruct R as [_ D]. specialize (D j ltac:(cbn [kl cnt]; lia)). rewrite skipn_length in D. cbn [kl reg sz] in D. rewrite <- Eq in D. unfold disj in D. lia.
    + left. exact R.
    + apply Forall_skipn. apply (rk_buf _ _ _ _ _ HM).
    + rewrite skipn_length. lia.
    + rewrite A2. exact A4.
    + rewrite A2. intros m' H'. apply (IH (S j) _ (cset c j (blit_list (c j) 0 (firstn n (skipn o buf))))); auto; [|lia|].
      * split; unfold set_mm; cbn [iv pv mm nx]; auto.
      * intros z c' Z1 Z2 Z3 Z4. apply (HQ z c' Z1); auto.
        -- intros i Hi. destruct (Nat.eq_dec i j) as [->|Hne]; [rewrite Z3 by lia; rewrite cset_eq; reflexivity|]. rewrite Z2 by lia. rewrite cset_neq by auto. reflexivity.
        -- intros i Hi. rewrite Z3 by lia. rewrite cset_neq by lia. reflexivity.
Qed.

Lemma h_checks P k : wfP P -> forall j y c (Q : state -> Prop), k_at y c -> j + k = m ->
  (forall z, k_at z c -> iv z 5 = (if forallb (fun i => padb P (c i)) (seq j k) then 1 else 0) -> (forall x, x <> 5 -> x <> 9 -> iv z x = iv y x) -> Q z) ->
  runs U (c_checks P j k) y Q.
Proof.
  intros Hw. induction k as [|k IH]; intros j y c Q A Hj HQ; cbn [c_checks seq forallb].
  - apply runs_iset. apply HQ.
    + destruct A; split; auto.
    + reflexivity.
    + intros x Hx _. unfold set_iv. cbn [iv]. apply upd_neq, Hx.
  - apply runs_seq. eapply runs_call; [cbn [pargevals pargeval pevals]; rewrite (array_eval y c j A ltac:(lia)); reflexivity|]. cbn [map].
    pose proof A as [A1 A2 A3 A4]. pose proof (heap_pts _ _ _ _ _ _ A4 j ltac:(cbn; lia)) as P1. cbn [kl reg] in P1. pose proof (heap_len _ _ _ _ _ _ A4 j ltac:(cbn; lia)) as L1. cbn [kl sz] in L1.
    pose proof (padb_ok P (c j) Hw L1) as Ep.
    eapply runs_mono; [eapply (h_padding U (c j) _ _ _ (q j) (padb P (c j))); [reflexivity|cbn [nx mm]; rewrite A2; exact P1|exact Ep]|].
    cbn [iv pv mm nx]. intros z (Z1 & _ & Z3 & Z4).
    eapply runs_if; [cbn [ceval ieval iv copy_back fold_left fst snd]; rewrite upd_eq, Z1; reflexivity|].
    cbn [seq forallb] in HQ. destruct (padb P (c j)) eqn:Ed; cbn [Nat.eqb andb] in *.
    + apply (IH (S j) _ c); [|lia|].
      * split; cbn [iv pv mm nx copy_back fold_left fst snd]; auto; [congruence|rewrite Z3; exact A4].
      * intros w W1 W2 W3. apply HQ; auto. intros x X1 X2. rewrite W3 by auto. cbn [iv copy_back fold_left fst snd]. apply upd_neq, X2.
    + apply runs_iset. apply HQ; unfold set_iv; cbn [iv pv mm nx copy_back fold_left fst snd].
      * split; cbn [iv pv mm nx copy_back fold_left fst snd]; auto; [congruence|rewrite Z3; exact A4].
      * reflexivity.
      * intros x X1 X2. rewrite !upd_neq by auto. reflexivity.
Qed.

(** The arrays and the result after c_read_arrays. *)
Definition arrays_read (P : paramset) (c : nat -> bytes) : bool * (nat -> bytes) :=
  if length buf <? 1 + m * stateSizeBytes P then (false, c)
  else let c' := fun j => blit_list (c j) 0 (got (stateSizeBytes P) j) in (forallb (fun i => padb P (c' i)) (seq 0 m), c').
Lemma h_arrays P y c (Q : state -> Prop) : wfP P -> k_at y c ->
  (forall z, k_at z (snd (arrays_read P c)) -> iv z 5 = (if fst (arrays_read P c) then 1 else 0) -> (forall x, x <> 5 -> x <> 9 -> iv z x = iv y x) -> Q z) ->
  runs U (c_read_arrays P m) y Q.
Proof.
  intros Hw A HQ. destruct (wfP_block P Hw) as [_ Hn]. unfold c_read_arrays, arrays_read in *.
  assert (Pn : 0 < stateSizeBytes P). { rewrite (wf_sB P Hw). pose proof (numBytes_spec (stateSizeBits P)). pose proof (wf_n P Hw). lia. }
  eapply runs_if; [cbn [ceval ieval]; rewrite (ka_len _ _ A); reflexivity|]. destruct (Nat.ltb_spec (length buf) (1 + m * stateSizeBytes P)) as [Hl|Hl].
  - apply runs_iset. apply HQ; cbn [fst snd].
    + destruct A; split; auto.
    + reflexivity.
    + intros x Hx _. unfold set_iv. cbn [iv]. apply upd_neq, Hx.
  - apply runs_seq. apply (h_copies_in (stateSizeBytes P) m 0 y c); auto.
    intros z c' Z1 Z2 _ Z4. cbn [fst snd] in HQ.
    assert (Z : k_at z (fun j => blit_list (c j) 0 (got (stateSizeBytes P) j))).
    { destruct Z1; split; auto. apply (heap_ext _ _ _ _ _ _ _ ka_hp0). intros k Hk. cbn [kl cnt] in Hk. symmetry. apply Z2. lia. }
    apply (h_checks P m Hw 0 z _ _ Z); [reflexivity|]. intros w W1 W2 W3. apply HQ; auto. intros x X1 X2. rewrite W3 by auto. apply Z4.
Qed.

Lemma h_dispatch p P ps : get_param_set p = Some P -> In p ps -> forall y c (Q : state -> Prop), k_at y c -> iv y 6 = N.to_nat p ->
  (forall z, k_at z (snd (arrays_read P c)) -> iv z 5 = (if fst (arrays_read P c) then 1 else 0) -> (forall x, x <> 5 -> x <> 9 -> iv z x = iv y x) -> Q z) ->
  runs U (c_dispatch ps m) y Q.
Proof.
  intros HP. induction ps as [|p' r IH]; intros Hin y c Q A I6 HQ; cbn [c_dispatch]; [contradiction|].
  destruct (N.eq_dec p' p) as [->|Hne].
  - rewrite HP. eapply runs_if; [cbn [ceval ieval]; rewrite I6; reflexivity|]. rewrite Nat.eqb_refl. apply (h_arrays P y c); auto. apply (get_param_set_wfP _ _ HP).
  - assert (Hr : In p r) by (destruct Hin; [contradiction|assumption]).
    destruct (get_param_set p') as [P'|]; [|apply (IH Hr y c); auto].
    eapply runs_if; [cbn [ceval ieval]; rewrite I6; reflexivity|]. rewrite (proj2 (Nat.eqb_neq _ _)) by (intros X; apply Hne; lia). apply (IH Hr y c); auto.
Qed.

Lemma h_clear k : forall j y c (Q : state -> Prop), k_at y c -> j + k = m ->
  (forall z c', k_at z c' -> (forall i, j <= i < m -> c' i = zero_block) -> (forall i, i < j -> c' i = c i) -> (forall x, iv z x = iv y x) -> Q z) ->
  runs U (clear_arrays j k) y Q.
Proof.
  induction k as [|k IH]; intros j y c Q A Hj HQ; cbn [clear_arrays].
  - apply runs_skip. apply (HQ y c A); auto. intros i Hi. lia.
  - apply runs_seq. pose proof A as [A1 A2 A3 A4].
    apply (h_memset0 n0 m0 U kl _ _ y c j); cbn [ieval kl reg cnt sz]; auto; try lia.
    + apply (array_eval y c); auto. lia.
    + rewrite A2. exact A4.
    + rewrite A2. intros m' H'. apply (IH (S j) _ (cset c j zero_block)); auto; [|lia|].
      * split; unfold set_mm; cbn [iv pv mm nx]; auto.
      * intros z c' Z1 Z2 Z3 Z4. apply (HQ z c' Z1); auto.
        -- intros i Hi. destruct (Nat.eq_dec i j) as [->|Hne]; [rewrite Z3 by lia; rewrite cset_eq; reflexivity|]. apply Z2. lia.
        -- intros i Hi. rewrite Z3 by lia. rewrite cset_neq by lia. reflexivity.
Qed.

(** The whole: result, contents and params. *)
Definition key_read (private : bool) (c : nat -> bytes) (p7 p8 : nat) : bool * (nat -> bytes) * nat * nat :=
  match buf with
  | [] => (false, c, p7, p8)
  | b0 :: _ =>
      match get_param_set b0 with
      | None => (false, c, p7, p8)
      | Some P => let r := arrays_read P (if private then fun _ => zero_block else c) in (fst r, snd r, N.to_nat b0, if private then N.to_nat b0 else p8)
      end
  end.
Lemma all_sets p : is_valid_params p = true -> In p param_sets.
Proof.
  unfold is_valid_params, PARAMETER_SET_MAX_INDEX, param_sets. rewrite andb_true_iff, !N.ltb_lt. intros [H1 H2]. cbn [In]. lia.
Qed.

Lemma h_read private : runs U (c_read_key m private) st (fun z =>
  let '(r, c', p7, p8) := key_read private (fun j => nth j ls []) (iv st 7) (iv st 8) in
  k_at z c' /\ iv z 5 = (if r then 1 else 0) /\ iv z 7 = p7 /\ iv z 8 = p8).
Proof.
  pose proof k_start as A0. unfold c_read_key. apply runs_seq, runs_iset. set (y0 := set_iv st _).
  assert (B0 : k_at y0 (fun j => nth j ls [])) by (destruct A0; split; auto).
  eapply runs_if; [cbn [ceval ieval]; rewrite (ka_len _ _ B0); reflexivity|]. unfold key_read.
  destruct buf as [|b0 bs] eqn:Eb; cbn [length].
  - change (0 <? 1) with true. apply runs_skip. auto.
  - rewrite (proj2 (Nat.ltb_ge (S (length bs)) 1)) by lia. rewrite <- Eb in *. apply runs_seq.
    pose proof (heap_ro _ _ _ _ _ _ _ _ (ka_hp _ _ B0) ro_kbuf) as P1.
    apply (CodeSpongeProofs.runs_ld1 U 0 _ y0 qb buf 0); [exact P1|rewrite Eb; cbn; lia| |].
    { cbn [P0 peval ieval]. rewrite (ka_pv _ _ B0), (proj1 (rk_buf _ _ _ _ _ HM)). cbn [nth_error]. rewrite Nat.add_0_r, <- surjective_pairing. reflexivity. }
    apply runs_seq, runs_toi. unfold set_dv, set_iv. cbn [iv dv pv mm nx ct deval]. rewrite upd_eq. replace (nth 0 buf 0%N) with b0 by (rewrite Eb; reflexivity).
    set (y1 := mkState _ _ _ _ _ _).
    assert (B1 : k_at y1 (fun j => nth j ls [])) by (destruct B0; split; auto).
    assert (I6 : iv y1 6 = N.to_nat b0) by reflexivity.
    assert (Vd : is_valid_params b0 = (0 <? N.to_nat b0) && (N.to_nat b0 <? N.to_nat PARAMETER_SET_MAX_INDEX)) by (unfold is_valid_params; f_equal; lia).
    assert (Iv : is_valid_params b0 = false -> get_param_set b0 = None).
    { intros Hv. destruct (get_param_set b0) as [P|] eqn:HP; [|reflexivity]. destruct (get_param_set_byte _ _ HP) as [_ X]. congruence. }
    eapply runs_if; [cbn [ceval ieval]; rewrite I6; reflexivity|]. destruct (0 <? N.to_nat b0) eqn:V1; cbn [andb] in Vd; [|rewrite (Iv Vd); apply runs_skip; auto].
    eapply runs_if; [cbn [ceval]; unfold ieval at 1 2; rewrite I6; reflexivity|]. destruct (N.to_nat b0 <? N.to_nat PARAMETER_SET_MAX_INDEX) eqn:V2; [|rewrite (Iv Vd); apply runs_skip; auto].
    destruct (get_param_set_valid b0 Vd) as [P HP]. rewrite HP. cbv zeta.
    set (c1 := if private then fun _ => zero_block else fun j => nth j ls []).
    assert (G : forall y, k_at y c1 -> iv y 6 = N.to_nat b0 -> iv y 8 = iv st 8 ->
      runs U (ISet 7 (IV 6) ;; (if private then ISet 8 (IV 6) else Skip) ;; c_dispatch param_sets m) y (fun z =>
        k_at z (snd (arrays_read P c1)) /\ iv z 5 = (if fst (arrays_read P c1) then 1 else 0) /\ iv z 7 = N.to_nat b0 /\ iv z 8 = (if private then N.to_nat b0 else iv st 8))).
    { intros y Ay J6 J8. apply runs_seq, runs_iset. apply runs_seq.
      assert (K : forall w, k_at w c1 -> iv w 6 = N.to_nat b0 -> iv w 7 = N.to_nat b0 -> iv w 8 = (if private then N.to_nat b0 else iv st 8) ->
        runs U (c_dispatch param_sets m) w (fun z =>
        k_at z (snd (arrays_read P c1)) /\ iv z 5 = (if fst (arrays_read P c1) then 1 else 0) /\ iv z 7 = N.to_nat b0 /\ iv z 8 = (if private then N.to_nat b0 else iv st 8))).
      { intros w Aw W6 W7 W8. apply (h_dispatch b0 P param_sets HP (all_sets b0 Vd) w c1); auto. intros z Z1 Z2 Z3. rewrite (Z3 7), (Z3 8) by lia. auto. }
      destruct private; [apply runs_iset|apply runs_skip]; apply K; unfold set_iv; cbn [iv ieval upd Nat.eqb]; auto; destruct Ay; split; auto. }
    apply runs_seq. destruct private.
    + apply (h_clear m 0 y1 (fun j => nth j ls [])); auto. intros z c' Z1 Z2 _ Z4. apply G.
      * destruct Z1; split; auto. apply (heap_ext _ _ _ _ _ _ _ ka_hp0). intros k Hk. symmetry. apply Z2. cbn [kl cnt] in Hk. lia.
      * rewrite Z4. exact I6.
      * rewrite Z4. reflexivity.
    + apply runs_skip. apply G; auto.
Qed.

Lemma k_end z c : k_at z c -> nx z = nx st /\ chg (nx st) (mm st) (mm z) (arrays q m) /\ forall j, j < m -> holds z (q j) (c j).
Proof.
  intros [A1 A2 A3 A4]. split; [exact A2|]. split; [exact (heap_chg _ _ _ _ _ _ A4)|]. intros j Hj. unfold holds. rewrite A2. split; [exact (heap_pts _ _ _ _ _ _ A4 j Hj)|exact (heap_ok _ _ _ _ _ _ A4 j Hj)].
Qed.
End Read.

Lemma slice_got buf n j : 1 + j * n + n <= length buf -> slice buf (1 + j * n) n = Ok (got buf n j) /\ length (got buf n j) = n.
Proof. intros H. unfold got. split; [apply slice_ok, H|rewrite firstn_length, skipn_length; lia]. Qed.

Theorem read_public_key_code U st q qb buf key : pk_wf key ->
  read_call st q qb buf [pk_ciphertext key; pk_plaintext key] -> iv st 7 = N.to_nat (pk_params key) ->
  exists st' t r k, run U (c_read_key 2 false) st = Some (st', t) /\ nx st' = nx st /\ chg (nx st) (mm st) (mm st') (arrays q 2) /\
    picnic_read_public_key (Some key) (Some buf) = Ok (r, Some k) /\
    iv st' 5 = (if r then 1 else 0) /\ iv st' 7 = N.to_nat (pk_params k) /\ holds st' (q 0) (pk_ciphertext k) /\ holds st' (q 1) (pk_plaintext k).
Proof.
  intros [[W2 _] [W1 _]] HM I7.
  pose proof (h_read U st q qb buf [pk_ciphertext key; pk_plaintext key] HM ltac:(intros [|[|[|j]]] l E; try discriminate E; injection E as <-; lia) false) as X.
  cbn [length] in X. unfold runs in X. destruct (run _ _ st) as [[z t]|]; [|contradiction].
  set (c0 := fun j => nth j [pk_ciphertext key; pk_plaintext key] []) in X. unfold key_read in X. unfold picnic_read_public_key.
  assert (K : forall c r b0, k_at st q buf [pk_ciphertext key; pk_plaintext key] z c -> iv z 5 = (if r : bool then 1 else 0) -> iv z 7 = N.to_nat b0 ->
    forall res, res = Ok (r, Some (mkPk b0 (c 1) (c 0))) -> exists st' t0 r k, Some (z, t) = Some (st', t0) /\ nx st' = nx st /\ chg (nx st) (mm st) (mm st') (arrays q 2) /\
    res = Ok (r, Some k) /\ iv st' 5 = (if r then 1 else 0) /\ iv st' 7 = N.to_nat (pk_params k) /\ holds st' (q 0) (pk_ciphertext k) /\ holds st' (q 1) (pk_plaintext k)).
  { intros c r b0 Z Z5 Z7 res ->. destruct (k_end st q buf [pk_ciphertext key; pk_plaintext key] z c Z) as (E1 & E2 & E3). cbn [length] in *.
    exists z, t, r, (mkPk b0 (c 1) (c 0)). cbn [pk_params pk_ciphertext pk_plaintext]. split; [reflexivity|]. split; [exact E1|]. split; [exact E2|]. split; [reflexivity|]. split; [exact Z5|]. split; [exact Z7|]. split; apply E3; lia. }
  assert (Ek : Some key = Some (mkPk (pk_params key) (c0 1) (c0 0))) by (destruct key; reflexivity).
  destruct buf as [|b0 bs] eqn:Eb; [destruct X as (Z & Z5 & Z7 & _); apply (K c0 false (pk_params key)); auto; [congruence|cbn; rewrite Ek at 1; reflexivity]|].
  rewrite <- Eb in *. replace (length buf <? 1) with false by (rewrite Eb; reflexivity). replace (rd buf 0) with (@Ok N b0) by (rewrite Eb; reflexivity). cbn [bind].
  destruct (get_param_set b0) as [P|] eqn:HP.
  - rewrite (proj2 (get_param_set_byte _ _ HP)). cbn [negb]. destruct X as (Z & Z5 & Z7 & _). apply (K _ _ b0 Z Z5 Z7). unfold arrays_read in *. cbn [length] in *.
    pose proof (get_param_set_wfP _ _ HP) as Hw. destruct (wfP_block P Hw) as [_ Hn]. unfold c0 in *. cbn [pk_ciphertext pk_plaintext] in *.
    destruct (length buf <? 1 + 2 * stateSizeBytes P) eqn:El; [reflexivity|]. apply Nat.ltb_ge in El. cbn [fst snd nth].
    destruct (slice_got buf (stateSizeBytes P) 0 ltac:(lia)) as [S0 L0]. destruct (slice_got buf (stateSizeBytes P) 1 ltac:(lia)) as [S1 L1].
    rewrite Nat.mul_0_l, Nat.add_0_r in S0. rewrite Nat.mul_1_l in S1. rewrite S0. cbn [bind]. rewrite blit_ok by lia. cbn [bind]. rewrite S1. cbn [bind]. rewrite blit_ok by lia. cbn [bind].
    rewrite (padb_ok P _ Hw) by (rewrite length_blit_list; lia). cbn [bind seq forallb nth].
    destruct (padb P (blit_list (pk_ciphertext key) 0 (got buf (stateSizeBytes P) 0))); cbn [negb andb]; [|reflexivity].
    rewrite (padb_ok P _ Hw) by (rewrite length_blit_list; lia). cbn [bind]. rewrite andb_true_r. reflexivity.
  - destruct X as (Z & Z5 & Z7 & _). replace (is_valid_params b0) with false.
    + cbn [negb]. apply (K c0 false (pk_params key)); auto; [congruence|]. rewrite Ek at 1. reflexivity.
    + symmetry. destruct (is_valid_params b0) eqn:V; [|reflexivity]. destruct (get_param_set_valid b0 V). congruence.
Qed.

Theorem read_private_key_code U st q qb buf key : sk_wf key ->
  read_call st q qb buf [sk_data key; pk_ciphertext (sk_pk key); pk_plaintext (sk_pk key)] ->
  iv st 7 = N.to_nat (sk_params key) -> iv st 8 = N.to_nat (pk_params (sk_pk key)) ->
  exists st' t r k, run U (c_read_key 3 true) st = Some (st', t) /\ nx st' = nx st /\ chg (nx st) (mm st) (mm st') (arrays q 3) /\
    picnic_read_private_key (Some key) (Some buf) = Ok (r, Some k) /\
    iv st' 5 = (if r then 1 else 0) /\ iv st' 7 = N.to_nat (sk_params k) /\ iv st' 8 = N.to_nat (pk_params (sk_pk k)) /\
    holds st' (q 0) (sk_data k) /\ holds st' (q 1) (pk_ciphertext (sk_pk k)) /\ holds st' (q 2) (pk_plaintext (sk_pk k)).
Proof.
  intros [[W0 _] [[W2 _] [W1 _]]] HM I7 I8.
  set (ls := [sk_data key; pk_ciphertext (sk_pk key); pk_plaintext (sk_pk key)]) in *.
  pose proof (h_read U st q qb buf ls HM ltac:(intros [|[|[|[|j]]]] l E; try discriminate E; injection E as <-; lia) true) as X.
  change (length ls) with 3 in X. unfold runs in X. destruct (run _ _ st) as [[z t]|]; [|contradiction].
  set (c0 := fun j => nth j ls []) in X. unfold key_read in X. unfold picnic_read_private_key.
  assert (K : forall c r b0 b1, k_at st q buf ls z c -> iv z 5 = (if r : bool then 1 else 0) -> iv z 7 = N.to_nat b0 -> iv z 8 = N.to_nat b1 ->
    forall res, res = Ok (r, Some (mkSk b0 (c 0) (mkPk b1 (c 2) (c 1)))) -> exists st' t0 r k, Some (z, t) = Some (st', t0) /\ nx st' = nx st /\ chg (nx st) (mm st) (mm st') (arrays q 3) /\
    res = Ok (r, Some k) /\ iv st' 5 = (if r then 1 else 0) /\ iv st' 7 = N.to_nat (sk_params k) /\ iv st' 8 = N.to_nat (pk_params (sk_pk k)) /\
    holds st' (q 0) (sk_data k) /\ holds st' (q 1) (pk_ciphertext (sk_pk k)) /\ holds st' (q 2) (pk_plaintext (sk_pk k))).
  { intros c r b0 b1 Z Z5 Z7 Z8 res ->. destruct (k_end st q buf ls z c Z) as (E1 & E2 & E3). change (length ls) with 3 in *.
    exists z, t, r, (mkSk b0 (c 0) (mkPk b1 (c 2) (c 1))). cbn [sk_params sk_data sk_pk pk_params pk_ciphertext pk_plaintext]. split; [reflexivity|]. split; [exact E1|]. split; [exact E2|]. split; [reflexivity|]. split; [exact Z5|]. split; [exact Z7|]. split; [exact Z8|]. split; [|split]; apply E3; lia. }
  assert (Ek : Some key = Some (mkSk (sk_params key) (c0 0) (mkPk (pk_params (sk_pk key)) (c0 2) (c0 1)))) by (destruct key as [? ? []]; reflexivity).
  destruct buf as [|b0 bs] eqn:Eb; [destruct X as (Z & Z5 & Z7 & Z8); apply (K c0 false (sk_params key) (pk_params (sk_pk key))); auto; [congruence|congruence|cbn; rewrite Ek at 1; reflexivity]|].
  rewrite <- Eb in *. replace (length buf <? 1) with false by (rewrite Eb; reflexivity). replace (rd buf 0) with (@Ok N b0) by (rewrite Eb; reflexivity). cbn [bind].
  destruct (get_param_set b0) as [P|] eqn:HP.
  - rewrite (proj2 (get_param_set_byte _ _ HP)). cbn [negb]. destruct X as (Z & Z5 & Z7 & Z8). apply (K _ _ b0 b0 Z Z5 Z7 Z8). unfold arrays_read in *. change (length ls) with 3 in *.
    pose proof (get_param_set_wfP _ _ HP) as Hw. destruct (wfP_block P Hw) as [_ Hn]. assert (Lz : length zero_block = 32) by reflexivity.
    destruct (length buf <? 1 + 3 * stateSizeBytes P) eqn:El; [reflexivity|]. apply Nat.ltb_ge in El. cbn [fst snd].
    destruct (slice_got buf (stateSizeBytes P) 0 ltac:(lia)) as [S0 L0]. destruct (slice_got buf (stateSizeBytes P) 1 ltac:(lia)) as [S1 L1]. destruct (slice_got buf (stateSizeBytes P) 2 ltac:(lia)) as [S2 L2].
    rewrite Nat.mul_0_l, Nat.add_0_r in S0. rewrite Nat.mul_1_l in S1. rewrite S0. cbn [bind]. rewrite blit_ok by lia. cbn [bind]. rewrite S1. cbn [bind]. rewrite blit_ok by lia. cbn [bind].
    rewrite S2. cbn [bind]. rewrite blit_ok by lia. cbn [bind].
    assert (Q : forall j, length (got buf (stateSizeBytes P) j) <= 32 -> length (blit_list zero_block 0 (got buf (stateSizeBytes P) j)) = 32) by (intros j Hj; rewrite length_blit_list; lia).
    rewrite (padb_ok P _ Hw) by (apply Q; lia). cbn [bind seq forallb].
    destruct (padb P (blit_list zero_block 0 (got buf (stateSizeBytes P) 0))); cbn [negb andb]; [|reflexivity].
    rewrite (padb_ok P _ Hw) by (apply Q; lia). cbn [bind].
    destruct (padb P (blit_list zero_block 0 (got buf (stateSizeBytes P) 1))); cbn [negb andb]; [|reflexivity].
    rewrite (padb_ok P _ Hw) by (apply Q; lia). cbn [bind]. rewrite andb_true_r. reflexivity.
  - destruct X as (Z & Z5 & Z7 & Z8). replace (is_valid_params b0) with false.
    + cbn [negb]. apply (K c0 false (sk_params key) (pk_params (sk_pk key))); auto; [congruence|congruence|]. rewrite Ek at 1. reflexivity.
    + symmetry. destruct (is_valid_params b0) eqn:V; [|reflexivity]. destruct (get_param_set_valid b0 V). congruence.
Qed.

Theorem validate_code U E P st sk pk : locals_ok U -> env_bytes_ok E -> get_param_set (pk_params pk) = Some P -> constants_ok E P ->
  sk_wf sk -> pk_wf pk -> validate_call E P st sk pk ->
  exists st' t r, run U (c_validate P) st = Some (st', t) /\ nx st' = nx st /\ chg (nx st) (mm st) (mm st') [] /\
    picnic_validate_keypair E (Some sk) (Some pk) = Ok r /\ iv st' 5 = (if r then 1 else 0).
Proof.
  intros HU HE HP HC [[Wd Bd] _] [[Wp Bp] [Wc Bc]] HM.
  pose proof (get_param_set_wfP _ _ HP) as Hw. pose proof Hw as []. destruct (wfP_block P Hw) as [Hn4 Hn].
  destruct (vk_params _ _ _ _ _ HM) as [I0 I1]. destruct (vk_pt _ _ _ _ _ HM) as (qp & Ep & Pp & _). destruct (vk_key _ _ _ _ _ HM) as (qk & Ek & [Pk _] & Gk). destruct (vk_ct _ _ _ _ _ HM) as (qc & Ec & Pc & _).
  assert (X : exists r, picnic_validate_keypair E (Some sk) (Some pk) = Ok r /\
    runs U (c_validate P) st (fun z => nx z = nx st /\ chg (nx st) (mm st) (mm z) [] /\ iv z 5 = (if r then 1 else 0))).
  2:{ destruct X as (r & Er & X). unfold runs in X. destruct (run _ _ st) as [[z t]|]; [|contradiction]. destruct X as (X1 & X2 & X3). exists z, t, r. auto. }
  unfold picnic_validate_keypair. rewrite HP. unfold c_validate.
  destruct (N.eqb_spec (sk_params sk) (pk_params pk)) as [Eq|Ne]; cbn [negb].
  2:{ exists false. split; [reflexivity|]. eapply runs_if; [cbn [ceval ieval]; rewrite I0, I1; reflexivity|]. rewrite (proj2 (Nat.eqb_neq _ _)) by (intros H; apply Ne; lia).
      apply runs_iset. split; [reflexivity|]. split; [intros b _; auto|reflexivity]. }
  destruct (get_param_set_byte _ _ HP) as [_ Vd]. rewrite Eq, Vd. cbn [negb].
  destruct (LowMCEnc_ex E P Hw (pk_plaintext pk) zero_block (sk_data sk) HE HC Bp Bd ltac:(apply bytes_ok_zeros) ltac:(lia) ltac:(lia) ltac:(change (length zero_block) with 32; lia)) as (o & Eo & Lo & Bo & Ho).
  rewrite Eo. cbn [bind]. unfold memcmp_eq. rewrite !slice0_ok by (change (length zero_block) with 32 in Lo; lia). cbn [bind].
  exists (eqb_bytes (firstn (stateSizeBytes P) o) (firstn (stateSizeBytes P) (pk_ciphertext pk))). split; [reflexivity|].
  unfold is_valid_params in Vd. apply andb_true_iff in Vd. destruct Vd as [V1 V2].
  eapply runs_if; [cbn [ceval ieval]; rewrite I0, I1, Eq, Nat.eqb_refl; reflexivity|]. cbn iota.
  eapply runs_if; [cbn [ceval ieval]; rewrite I1, Eq, (proj2 (Nat.ltb_lt _ _)) by lia; reflexivity|]. cbn iota.
  eapply runs_if; [cbn [ceval]; unfold ieval; rewrite I1, Eq, (proj2 (Nat.ltb_lt _ _)) by lia; reflexivity|]. cbn iota.
  set (L := mkLayout 0 (fun _ => (0, 0)) (fun _ => 0)).
  assert (H0 : heap (nx st) (mm st) L (nx st) (mm st) (fun _ => [])).
  { split; cbn [L cnt]; try (intros; lia); [split; cbn [L cnt]; intros; lia|intros b' _; auto]. }
  apply (h_loc (nx st) (mm st) U L 5 _ _ st (fun _ => [])); auto.
  intros b Lb Bb. cbn [ieval] in Lb |- *. set (y0 := mkState _ _ _ _ _ _). set (L1 := push L (nx st, 0) PICNIC_MAX_LOWMC_BLOCK_SIZE).
  assert (H1 : heap (nx st) (mm st) L1 (S (nx st)) (mm y0) (cset (fun _ => []) 0 b)).
  { unfold L1. rewrite <- Lb. apply (heap_push (nx st) (mm st) L (nx st) (mm st) (fun _ => []) b H0 Bb). }
  assert (RO : forall p l, pts (nx st) (mm st) p l -> ro (nx st) (mm st) L1 p l).
  { intros p l Hp. apply ro_push; [lia|]. split; [exact Hp|]. intros k Hk. cbn [L cnt] in Hk. lia. }
  assert (P5 : forall i (m' : memory), peval i (pv y0) (P0 5) = Some (reg L1 0)) by reflexivity.
  apply runs_seq. apply (h_memset0 (nx st) (mm st) U L1 _ _ y0 (cset (fun _ => []) 0 b) 0); auto; try (change (sz L1 0) with 32; lia); try (change (cnt L1) with 1; lia).
  intros m1 H2. cbn [nx y0] in H2. set (y1 := set_mm y0 m1).
  assert (Pz : pts (S (nx st)) m1 (nx st, 0) zero_block) by exact (heap_pts _ _ _ _ _ _ H2 0 ltac:(cbn; lia)).
  assert (T : forall a cn f, constants st a cn f [] -> a <> 5 -> table y1 a cn f (nx st, 0) (4 * stateSizeWords P)).
  { intros a cn f Ha Hne i Hi. destruct (Ha i Hi) as (p & A1 & [A2 A3] & A4). exists p. unfold y1, set_mm. cbn [y0 pv nx mm]. rewrite upd_neq by exact Hne. split; [exact A1|].
    split; [exact (heap_ro _ _ _ _ _ _ _ _ H2 (RO _ _ A2))|]. split; [exact A4|]. left. cbn [fst]. pose proof (proj1 A2). lia. }
  apply runs_seq. apply (runs_LowMCEnc U P Hw HU E _ _ _ 2 3 4 y1 qp (nx st, 0) qk (firstn (4 * stateSizeWords P) (pk_plaintext pk)) (firstn (4 * stateSizeWords P) zero_block) (sk_data sk)); auto; try lia.
  - cbn [P0 peval ieval]. unfold y1, set_mm. cbn [y0 pv]. rewrite upd_neq, Ep by lia. reflexivity.
  - cbn [P0 peval ieval]. unfold y1, set_mm. cbn [y0 pv]. rewrite upd_neq, Ek by lia. reflexivity.
  - apply Forall_firstn, Bp.
  - rewrite firstn_length. lia.
  - rewrite firstn_length. change (length zero_block) with 32. lia.
  - apply pts_firstn. exact (heap_ro _ _ _ _ _ _ _ _ H2 (RO _ _ Pp)).
  - apply pts_firstn. exact Pz.
  - exact (heap_ro _ _ _ _ _ _ _ _ H2 (RO _ _ Pk)).
  - right. left. cbn [fst]. pose proof (proj1 Pp). lia.
  - left. cbn [fst]. pose proof (proj1 Pk). lia.
  - apply T; [apply (vk_K _ _ _ _ _ HM)|lia].
  - apply T; [apply (vk_L _ _ _ _ _ HM)|lia].
  - apply T; [apply (vk_C _ _ _ _ _ HM)|lia].
  - intros m2 u o2 L2 B2 Ho2 P2 C2.
    assert (H3 : heap (nx st) (mm st) L1 (S (nx st)) m2 (cset (cset (cset (fun _ => []) 0 b) 0 (zeros (sz L1 0))) 0 (blit_list zero_block 0 o2))).
    { apply (heap_patch (nx st) (mm st) L1 (S (nx st)) m1 (cset (cset (fun _ => []) 0 b) 0 (zeros (sz L1 0))) 0 0 o2); auto; [change (sz L1 0) with 32; lia|rewrite L2; exact C2]. }
    apply runs_seq. set (y2 := set_mc y1 m2 u).
    apply (h_memcmp (nx st) (mm st) U L1 0 _ _ _ y2 (cset (cset (cset (fun _ => []) 0 b) 0 (zeros (sz L1 0))) 0 (blit_list zero_block 0 o2)) (nx st, 0) qc (blit_list zero_block 0 o2) (pk_ciphertext pk) _); cbn [ieval].
    + reflexivity.
    + cbn [P0 peval ieval]. unfold y2, y1, set_mc, set_mm. cbn [y0 pv]. rewrite upd_neq, Ec by lia. reflexivity.
    + right. exists 0. split; [cbn; lia|]. split; [reflexivity|]. rewrite cset_eq. reflexivity.
    + left. apply RO, Pc.
    + rewrite length_blit_list by (change (length zero_block) with 32; lia). change (length zero_block) with 32. exact Hn.
    + lia.
    + exact H3.
    + intros d u' Ed. apply runs_ifd. cbn [deval dv]. rewrite upd_eq, Ed.
      assert (Eo2 : firstn (stateSizeBytes P) (blit_list zero_block 0 o2) = firstn (stateSizeBytes P) o).
      { f_equal. apply bits_ext; auto.
        - rewrite length_blit_list; change (length zero_block) with 32 in *; lia.
        - apply (heap_ok _ _ _ _ _ _ H3 0). cbn. lia.
        - intros i Hi. rewrite bit_blit0 by (change (length zero_block) with 32; lia). rewrite L2, Ho, Ho2, bit_zero_block.
          assert (V : veq (stateSizeBits P) (lowmc_enc (lowmc_of E P) (bit (sk_data sk)) (bit (firstn (4 * stateSizeWords P) (pk_plaintext pk)))) (lowmc_enc (lowmc_of E P) (bit (sk_data sk)) (bit (pk_plaintext pk)))).
          { apply (LowMCInj.lowmc_enc_ext (lowmc_of E P)); auto; [intros j Hj; reflexivity|]. intros j Hj. change (lm_n (lowmc_of E P)) with (stateSizeBits P) in Hj. apply bit_firstn. lia. }
          destruct (Nat.ltb_spec i (stateSizeBits P)) as [Hb|Hb].
          + rewrite (proj2 (Nat.ltb_lt i (8 * (4 * stateSizeWords P)))) by lia. apply V, Hb.
          + destruct (i <? 8 * _), (i <? 32 * _); reflexivity. }
      rewrite Eo2. set (e := eqb_bytes (firstn (stateSizeBytes P) o) (firstn (stateSizeBytes P) (pk_ciphertext pk))). clearbody e. destruct e; apply runs_iset; eexists; (split; [exact H3|]); intros m' H'; cbn [nx mm iv set_iv]; rewrite ?upd_eq;
        (split; [reflexivity|]); (split; [exact (heap_chg _ _ _ _ _ _ H')|reflexivity]).
Qed.
