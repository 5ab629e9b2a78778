(** The rounds of ZKB++ signing on memory with pointers: the results. *)

From Coq Require Import List NArith Arith Bool Lia ZifyBool ZifyNat ZifyN.
From Verif Require Import Base Params Env Spec LowMC Picnic1 MiniC CodeLowMC CodeZkb CodeKeccak CodeP3 CodeSpec HashSpec CodeKeccakSpec CodeZkbSpec CodeHashUses CodeSign CodeSignSpec CodeP3Spec
  ApiSpec BaseFacts ParamFacts LowMCFacts SigSpec ZkbMpc Zkb ZkbRound ZkbSign HashProofs
  MiniCFacts CodeRules CodeLowMCProofs CodeHeap CodeZkbProofs CodeZkbSub CodeZkbBits CodeZkbMpc CodeZkbRun CodeP3Proofs CodeP3Lin CodeShow CodeHashUsesTop CodeSignRules CodeSignProofs.
From Verif Require CodeHashUsesSpec.
Import ListNotations.
Local Open Scope c_scope.

Definition small_b (P : paramset) : bool :=
  (N.of_nat (seedSizeBytes P + saltSizeBytes P + stateSizeBytes P + andSizeBytes P + digestSizeBytes P + UnruhGWithInputBytes P) + 200 <=? 2 ^ 32)%N.
Lemma get_param_set_small p P : get_param_set p = Some P -> small P.
Proof.
  intros H. apply N.leb_le. change (small_b P = true). revert p P H.
  apply (params_forall (fun _ P => small_b P)). vm_compute. reflexivity.
Qed.

Lemma nth_map_seq {A} (f : nat -> A) n i : i < n -> nth_error (map f (seq 0 n)) i = Some (f i).
Proof.
  intros H. rewrite nth_error_map. assert (X : nth_error (seq 0 n) i = Some (nth i (seq 0 n) 0)) by (apply nth_error_nth'; rewrite seq_length; exact H).
  rewrite X, seq_nth by exact H. reflexivity.
Qed.

Section T.
Variables (U : nat -> nat -> bytes) (HU : locals_ok U) (E : env) (P : paramset) (HP1 : wfP1 P) (HS : small P) (HE0 : env_bytes_ok E) (HC : constants_ok E P).
Variables (st : state) (q : nat -> ptr) (allSeeds salt sk pub pt : bytes).
Hypothesis HM : sign_call P E st q allSeeds salt sk pub pt.
Notation Es := (with_shake E).
Let HE : env_bytes_ok Es := shake_env E HE0.
Let T := numMPCRounds P.
Let sl : layout := mkLayout (round_at P T) q (sign_size P).

Lemma model_rounds n : forall k, k + n = T ->
  ok (sign_rounds Es P n k allSeeds salt sk pub pt) (fun r =>
    match r with
    | None => ~ lowmc_relation E P sk pt pub
    | Some l => (0 < n -> lowmc_relation E P sk pt pub) /\ length l = n /\
        forall i rd, nth_error l i = Some rd -> round_is Es P (seed_kj P allSeeds (k + i)) salt (k + i) sk pt rd
    end).
Proof.
  destruct (sc_salt _ _ _ _ _ _ _ _ _ HM) as (p1 & _ & _ & S1). destruct (sc_sk _ _ _ _ _ _ _ _ _ HM) as (p2 & _ & (_ & S2 & _) & _ & S3).
  destruct (sc_pub _ _ _ _ _ _ _ _ _ HM) as (p3 & _ & (_ & S4 & _) & S5). destruct (sc_pt _ _ _ _ _ _ _ _ _ HM) as (p4 & _ & (_ & S6 & _) & _ & S7).
  destruct (sc_seeds _ _ _ _ _ _ _ _ _ HM) as (ps & Hps & Lps & _).
  induction n as [|n IH]; intros k Hk; cbn [sign_rounds].
  - cbn [ok]. split; [lia|]. split; [reflexivity|]. intros [|i] rd; discriminate.
  - eapply ok_step.
    { apply (sign_round_spec Es P HP1 HE HC k _ (seed_kj P allSeeds k)); auto; [|lia].
      intros j Hj. assert (Hl : (3 * k + j) * seedSizeBytes P + seedSizeBytes P <= 3 * T * seedSizeBytes P) by nia. fold T in Lps. split.
      - unfold seed_at. rewrite (w1_N P HP1). unfold seed_kj. apply slice_ok. lia.
      - unfold seed_kj. rewrite firstn_length, skipn_length. lia. }
    intros [rd|] Hr; cbv beta iota in Hr; [|exact Hr]. destruct Hr as [Hrel Hrd].
    eapply ok_step; [apply (IH (S k)); lia|]. intros [l|] Hl; cbv beta iota in Hl; cbn [ok]; [|contradiction].
    destruct Hl as (_ & Hl & Hi). split; [auto|]. split; [cbn [length]; lia|]. intros [|i] rd' Hn; cbn [nth_error] in Hn.
    + injection Hn as <-. rewrite Nat.add_0_r. exact Hrd.
    + rewrite <- Nat.add_succ_comm. apply Hi, Hn.
Qed.

Lemma start_heap : exists c, heap (nx st) (mm st) sl (nx st) (mm st) c /\ forall k j, k < T -> j < 9 -> c (round_at P k + j) = zeros (kind_size P j).
Proof.
  pose proof (per_12 P st) as Pr. exists (fun i => rdmem (mm st) (q i) (sign_size P i)).
  assert (X : forall i, i < round_at P T -> exists l, holds st (q i) l /\ length l = sign_size P i /\ rdmem (mm st) (q i) (sign_size P i) = l).
  { intros i Hi. destruct (sc_room _ _ _ _ _ _ _ _ _ HM i Hi) as (l & A & B). exists l. split; [exact A|]. split; [exact B|].
    rewrite (rdmem_pts (nx st) _ _ l) by (apply A || lia). rewrite <- B. apply firstn_all. }
  split.
  - split; [split| | | |]; cbn [sl cnt reg sz].
    + auto.
    + intros i Hi. destruct (X i Hi) as (l & [[A _] _] & _). exact A.
    + intros i j Hi Hj Hne. apply (sc_apart _ _ _ _ _ _ _ _ _ HM i j (q i) (sign_size P i) (q j) (sign_size P j)); [exact (nth_map_seq _ _ i Hi)|exact (nth_map_seq _ _ j Hj)|exact Hne].
    + intros i Hi. destruct (X i Hi) as (l & [A _] & _ & ->). exact A.
    + intros i Hi. destruct (X i Hi) as (l & _ & A & ->). exact A.
    + intros i Hi. destruct (X i Hi) as (l & [_ A] & _ & ->). exact A.
    + apply chg_refl.
  - intros k j Hk Hj. pose proof (sc_calloc _ _ _ _ _ _ _ _ _ HM k j Hk Hj) as [A _].
    assert (Sz : sign_size P (round_at P k + j) = kind_size P j) by (apply (R_sz P st q); lia).
    rewrite (rdmem_pts (nx st) _ _ _ _ A) by (rewrite length_zeros, Sz; lia). rewrite Sz. rewrite <- (length_zeros (kind_size P j)) at 1. apply firstn_all.
Qed.

Lemma runs_sign_loop (Q : state -> Prop) :
  (forall iv' m' u' c', (forall x, x <> 2 -> iv' x = iv st x) -> heap (nx st) (mm st) sl (nx st) m' c' ->
     (iv' 2 = 1 /\ lowmc_relation E P sk pt pub /\ (forall k, k < T -> done E P allSeeds salt sk pt k c') \/ iv' 2 = 0 /\ ~ lowmc_relation E P sk pt pub) ->
     Q (mkState iv' (dv st) (pv st) m' (nx st) u')) ->
  runs U (c_sign_loop P) st Q.
Proof.
  intros HQ. destruct start_heap as (c & Hh & Hz). destruct (sc_seeds _ _ _ _ _ _ _ _ _ HM) as (ps & Hps & Lps & Eps). unfold c_sign_loop. apply runs_seq, runs_iset.
  apply (h_rounds U HU E P HP1 HS HE0 HC st q allSeeds salt sk pub pt HM ps Hps Lps Eps T 0 _ _ _ _ c).
  - reflexivity.
  - apply upd_eq.
  - lia.
  - exact Hh.
  - intros k Hk j Hj. split; rewrite Hz by lia; f_equal; unfold kind_size; destruct (lt3_cases j Hj) as [->|[->| ->]]; reflexivity.
  - intros iv' m' u' c' J H' _ X. apply (HQ iv' m' u' c').
    + intros x Hx. rewrite J by exact Hx. apply upd_neq, Hx.
    + exact H'.
    + destruct X as [(A & B & C)|X]; [left|right; exact X]. split; [exact A|]. split; [exact B|]. intros k Hk. apply C. fold T. lia.
Qed.

Lemma done_stored m' c' u' iv' k j rd : heap (nx st) (mm st) sl (nx st) m' c' -> k < T -> j < 3 -> done E P allSeeds salt sk pt k c' ->
  round_is Es P (seed_kj P allSeeds k) salt k sk pt rd -> stored P (mkState iv' (dv st) (pv st) m' (nx st) u') q k j rd.
Proof.
  intros H Hk Hj [Hh Hc] (_ & RV & RC & RG). pose proof (per_12 P st) as Pr. unfold stored. cbn [nx mm]. rewrite RV, (RC j Hj). destruct (Hh j Hj) as (A1 & A2 & A3). destruct (Hc j Hj) as [A4 A5].
  change (fun j : nat => seed_kj P allSeeds k j) with (seed_kj P allSeeds k) in *.
  assert (X : forall i, i < per_round P -> pts (nx st) m' (q (round_at P k + i)) (c' (round_at P k + i))).
  { intros i Hi. apply (heap_pts _ _ _ _ _ _ H). cbn [sl cnt]. unfold round_at. nia. }
  rewrite <- A1, <- A2, <- A3, <- A4. split; [apply X; lia|]. split; [apply X; lia|]. split; [apply X; lia|]. split; [apply X; lia|].
  intros Hu. pose proof (per_15 P Hu). destruct (RG Hu j Hj) as [_ RG']. change (G_bytes P j) with (G_len P j). rewrite RG', <- (A5 Hu). apply pts_firstn, X. lia.
Qed.
End T.

Lemma sign_rounds_code U E p P st q allSeeds salt sk pub pt :
  locals_ok U -> get_param_set p = Some P -> is_picnic3 p = false -> env_bytes_ok E -> constants_ok E P ->
  sign_call P E st q allSeeds salt sk pub pt ->
  exists st' t, run U (c_sign_loop P) st = Some (st', t) /\
    chg (nx st) (mm st) (mm st') (sign_writes P q) /\
    (forall x, x <> 2 -> iv st' x = iv st x) /\ dv st' = dv st /\ pv st' = pv st /\ nx st' = nx st /\
    match sign_rounds (with_shake E) P (numMPCRounds P) 0 allSeeds salt sk pub pt with
    | Ok (Some rds) => iv st' 2 = 1 /\ lowmc_relation E P sk pt pub /\ length rds = numMPCRounds P /\
        forall k j rd, nth_error rds k = Some rd -> j < 3 -> stored P st' q k j rd
    | Ok None => iv st' 2 = 0 /\ ~ lowmc_relation E P sk pt pub
    | _ => False
    end.
Proof.
  intros HU HP Hp HE HC HM. pose proof (get_param_set_wfP1 p P HP Hp) as HP1. pose proof (get_param_set_small p P HP) as HS.
  pose proof (model_rounds E P HP1 HE HC st q allSeeds salt sk pub pt HM (numMPCRounds P) 0 eq_refl) as MR.
  pose proof (runs_sign_loop U HU E P HP1 HS HE HC st q allSeeds salt sk pub pt HM (fun y =>
    chg (nx st) (mm st) (mm y) (sign_writes P q) /\
    (forall x, x <> 2 -> iv y x = iv st x) /\ dv y = dv st /\ pv y = pv st /\ nx y = nx st /\
    match sign_rounds (with_shake E) P (numMPCRounds P) 0 allSeeds salt sk pub pt with
    | Ok (Some rds) => iv y 2 = 1 /\ lowmc_relation E P sk pt pub /\ length rds = numMPCRounds P /\
        forall k j rd, nth_error rds k = Some rd -> j < 3 -> stored P y q k j rd
    | Ok None => iv y 2 = 0 /\ ~ lowmc_relation E P sk pt pub
    | _ => False
    end)) as R.
  assert (RR : runs U (c_sign_loop P) st (fun y =>
    chg (nx st) (mm st) (mm y) (sign_writes P q) /\
    (forall x, x <> 2 -> iv y x = iv st x) /\ dv y = dv st /\ pv y = pv st /\ nx y = nx st /\
    match sign_rounds (with_shake E) P (numMPCRounds P) 0 allSeeds salt sk pub pt with
    | Ok (Some rds) => iv y 2 = 1 /\ lowmc_relation E P sk pt pub /\ length rds = numMPCRounds P /\
        forall k j rd, nth_error rds k = Some rd -> j < 3 -> stored P y q k j rd
    | Ok None => iv y 2 = 0 /\ ~ lowmc_relation E P sk pt pub
    | _ => False
    end)).
  { apply R. clear R. intros iv' m' u' c' J H X. cbn [iv dv pv mm nx]. split; [exact (heap_chg _ _ _ _ _ _ H)|]. split; [exact J|]. split; [reflexivity|]. split; [reflexivity|]. split; [reflexivity|].
    destruct (sign_rounds _ _ _ _ _ _ _ _ _) as [[rds|]| | |]; cbn [ok] in MR; try contradiction.
    - destruct MR as (Rl & Ln & Rd). specialize (Rl (w1_T P HP1)). destruct X as [(A & _ & C)|[_ X]]; [|contradiction]. split; [exact A|]. split; [exact Rl|]. split; [exact Ln|].
      intros k j rd Hn Hj. assert (Hk : k < numMPCRounds P) by (rewrite <- Ln; apply nth_error_Some; congruence).
      apply (done_stored E P st q allSeeds salt sk pt m' c' u' iv' k j rd H Hk Hj (C k Hk)). apply (Rd k rd Hn).
    - destruct X as [(_ & X & _)|[A _]]; [contradiction|]. auto. }
  unfold runs in RR. destruct (run U _ st) as [[y t]|]; [|contradiction]. exists y, t. split; [reflexivity|exact RR].
Qed.

(** ** What the loop shows *)
Section Shown.
Variables (U : nat -> nat -> bytes) (P : paramset).

Lemma inv_quiet s1 s2 x y t : shows_nothing s1 = true -> run U (s1 ;; s2) x = Some (y, t) -> exists x' t', run U s2 x' = Some (y, t') /\ shown t = shown t'.
Proof.
  intros SN H. cbn [run] in H. destruct (inv_andthen _ _ _ _ H) as (x1 & t1 & t2 & A & B & ->). exists x1, t2. split; [exact B|].
  rewrite shown_app, (shown_nothing U s1 SN _ _ _ A). reflexivity.
Qed.
Lemma inv_or_fail s x y t : run U (or_fail s) x = Some (y, t) -> iv y 2 <> 0 -> exists t', run U s x = Some (y, t') /\ shown t = shown t'.
Proof.
  unfold or_fail. cbn [run ceval ieval]. destruct (iv x 1 =? 0); intros H Hy; destruct (inv_emit _ _ _ _ H) as (t1 & A & ->).
  - injection A as <- <-. cbn [set_iv iv] in Hy. rewrite upd_eq in Hy. congruence.
  - exists t1. split; [exact A|reflexivity].
Qed.
Lemma tape_quiet k j p len : shows_nothing (call_tape P k j p len) = true.
Proof. unfold call_tape. cbn [shows_nothing]. unfold c_createRandomTape, with_ctx. cbn [shows_nothing]. rewrite !digest_shows. reflexivity. Qed.
Lemma commit_quiet j : shows_nothing (call_Commit P j) = true.
Proof. unfold call_Commit. cbn [shows_nothing]. unfold c_Commit, with_ctx. cbn [shows_nothing]. rewrite !digest_shows. reflexivity. Qed.
Lemma G_quiet j : shows_nothing (call_G P j) = true.
Proof. unfold call_G. cbn [shows_nothing]. unfold c_G, with_ctx. cbn [shows_nothing]. rewrite !digest_shows. reflexivity. Qed.
Lemma zero_quiet p n : shows_nothing (c_zeroTrailingBits p n) = true.
Proof. reflexivity. Qed.
Lemma three_quiet po p1 p2 p3 e : shows_nothing (c_xor_three po p1 p2 p3 e) = true.
Proof. reflexivity. Qed.
Lemma commitments_quiet : shows_nothing (c_commitments P ;; ISet 2 (IC 1)) = true.
Proof.
  unfold c_commitments. cbn [shows_nothing]. rewrite !commit_quiet. destruct (is_UR (transf P)); cbn [shows_nothing]; rewrite ?G_quiet; reflexivity.
Qed.

Lemma inv_share k j s x y t : run U (c_share P k j s) x = Some (y, t) -> iv y 2 <> 0 -> exists x' t', run U s x' = Some (y, t') /\ shown t = shown t'.
Proof.
  intros H Hy. unfold c_share in H. destruct (inv_quiet _ _ _ _ _ (tape_quiet _ _ _ _) H) as (x1 & t1 & H1 & ->). destruct (inv_or_fail _ _ _ _ H1 Hy) as (t2 & H2 & ->).
  destruct (inv_quiet _ _ _ _ _ (eq_refl : shows_nothing (MemCpy _ _ _) = true) H2) as (x3 & t3 & H3 & ->).
  destruct (inv_quiet _ _ _ _ _ (zero_quiet _ _) H3) as (x4 & t4 & H4 & ->).
  destruct (inv_quiet _ _ _ _ _ (eq_refl : shows_nothing (MemCpy _ _ _) = true) H4) as (x5 & t5 & H5 & ->). exists x5, t5. auto.
Qed.

Lemma shown_round k x y t : run U (c_sign_round P k) x = Some (y, t) -> iv y 2 <> 0 -> shown t = repeat 0%N (stateSizeBytes P + 1).
Proof.
  intros H Hy. unfold c_sign_round in H. destruct (inv_share _ _ _ _ _ _ H Hy) as (x1 & t1 & H1 & ->). clear H. destruct (inv_share _ _ _ _ _ _ H1 Hy) as (x2 & t2 & H2 & ->). clear H1.
  unfold c_simulate in H2. destruct (inv_quiet _ _ _ _ _ (tape_quiet _ _ _ _) H2) as (x3 & t3 & H3 & ->). clear H2. destruct (inv_or_fail _ _ _ _ H3 Hy) as (t4 & H4 & ->). clear H3.
  destruct (inv_quiet _ _ _ _ _ (three_quiet _ _ _ _ _) H4) as (x5 & t5 & H5 & ->). clear H4.
  destruct (inv_quiet _ _ _ _ _ (eq_refl : shows_nothing (ISet _ _) = true) H5) as (x6 & t6 & H6 & ->). clear H5.
  destruct (inv_quiet _ _ _ _ _ (eq_refl : shows_nothing (c_mpc_LowMC P 0 1 2 3 (PV 4 (IC 0)) (PV 5 (IC 0)) 6 7 8 0) = true) H6) as (x7 & t7 & H7 & ->). clear H6.
  pose proof commitments_quiet as CQ. remember (c_commitments P ;; ISet 2 (IC 1)) as cm eqn:Ecm. clear Ecm.
  remember (MemSet (P0 16) 0 (IC LOWMC_MAX_STATE_BYTES) ;; c_xor_three (P0 16) (PV 3 (IC 0)) (PV 3 (IC 1)) (PV 3 (IC 2)) (IC (stateSizeBytes P)) ;; c_memcmp 0 (P0 16) (P0 13) (IC (stateSizeBytes P))) as bd eqn:Ebd.
  cbn [run] in H7. destruct (inv_andthen _ _ _ _ H7) as (x8 & t8 & t9 & A & B & ->). clear H7.
  change (run U (Loc 16 (IC LOWMC_MAX_STATE_BYTES) bd) x7 = Some (x8, t8)) in A. destruct (inv_loc _ _ _ _ _ _ _ A) as (z & F & ->). clear A.
  destruct (inv_emit _ _ _ _ B) as (t10 & B1 & ->). clear B. cbn [deval dv] in B1. rewrite !shown_app. cbn [deval dv shown flat_map app].
  destruct (N.eqb_spec (dv z 0) 0) as [E0|E0]; [|injection B1 as <- <-; cbn [set_iv iv] in Hy; rewrite upd_eq in Hy; congruence].
  fold (shown t10). rewrite (shown_nothing U cm CQ _ _ _ B1), E0.
  subst bd. destruct (inv_quiet _ _ _ _ _ (eq_refl : shows_nothing (MemSet _ _ _) = true) F) as (x9 & t11 & H8 & ->). clear F.
  destruct (inv_quiet _ _ _ _ _ (three_quiet _ _ _ _ _) H8) as (x10 & t12 & H9 & ->). clear H8.
  rewrite (shown_memcmp U _ _ _ _ _ _ _ H9 E0). cbn [ieval]. rewrite repeat_app. reflexivity.
Qed.

Lemma shown_rounds n : forall k x y t, run U (c_sign_rounds P n k) x = Some (y, t) -> iv y 2 <> 0 -> shown t = repeat 0%N (n * (stateSizeBytes P + 1)).
Proof.
  induction n as [|n IH]; intros k x y t H Hy; cbn [c_sign_rounds] in H.
  - injection H as <- <-. reflexivity.
  - remember (c_sign_rounds P n (S k)) as rest eqn:Er. remember (call_sign_round P k) as rd eqn:Ed. cbn [run ceval ieval] in H. destruct (inv_andthen _ _ _ _ H) as (x1 & t1 & t2 & A & B & ->). clear H.
    rewrite shown_app. destruct (Nat.eqb_spec (iv x1 2) 0) as [E0|E0].
    + destruct (inv_emit _ _ _ _ B) as (t3 & C & ->). injection C as <- <-. lia.
    + destruct (inv_emit _ _ _ _ B) as (t3 & C & ->). subst rest rd.
      unfold call_sign_round in A. destruct (inv_call _ _ _ _ _ _ _ _ _ _ A) as (ps & z & _ & F & ->). cbn [iv copy_back] in E0. rewrite upd_eq in E0.
      rewrite (shown_round _ _ _ _ F E0). rewrite shown_app, (IH _ _ _ _ C Hy). cbn [shown flat_map app]. rewrite <- repeat_app. reflexivity.
Qed.
End Shown.

Lemma sign_loop_shows U P x y t : run U (c_sign_loop P) x = Some (y, t) -> iv y 2 <> 0 -> shown t = repeat 0%N (numMPCRounds P * (stateSizeBytes P + 1)).
Proof.
  intros H Hy. unfold c_sign_loop in H. destruct (inv_quiet U _ _ _ _ _ (eq_refl : shows_nothing (ISet _ _) = true) H) as (x1 & t1 & H1 & ->).
  exact (shown_rounds U P _ _ _ _ _ H1 Hy).
Qed.

Lemma sign_rounds_constant_time U U' E p P x y q q' allSeeds allSeeds' salt salt' sk sk' pub pub' pt pt' :
  locals_ok U -> locals_ok U' -> get_param_set p = Some P -> is_picnic3 p = false -> env_bytes_ok E -> constants_ok E P ->
  sign_call P E x q allSeeds salt sk pub pt -> sign_call P E y q' allSeeds' salt' sk' pub' pt' ->
  lowmc_relation E P sk pt pub -> lowmc_relation E P sk' pt' pub' -> same_public x y ->
  observed (run U (c_sign_loop P) x) = observed (run U' (c_sign_loop P) y).
Proof.
  intros HU HU' HP Hp HE HC HM HM' Rl Rl' H.
  destruct (sign_rounds_code U E p P x q allSeeds salt sk pub pt HU HP Hp HE HC HM) as (x' & t & A & _ & _ & _ & _ & _ & X).
  destruct (sign_rounds_code U' E p P y q' allSeeds' salt' sk' pub' pt' HU' HP Hp HE HC HM') as (y' & t' & B & _ & _ & _ & _ & _ & Y).
  assert (Ix : iv x' 2 <> 0) by (destruct (sign_rounds _ _ _ _ _ salt _ _ _) as [[rds|]| | |]; [destruct X as [X _]; lia|destruct X; contradiction|contradiction|contradiction|contradiction]).
  assert (Iy : iv y' 2 <> 0) by (destruct (sign_rounds _ _ _ _ _ salt' _ _ _) as [[rds|]| | |]; [destruct Y as [Y _]; lia|destruct Y; contradiction|contradiction|contradiction|contradiction]).
  assert (L : forall k j, length (U k j) = length (U' k j)) by (intros k j; rewrite (proj1 (HU k j)), (proj1 (HU' k j)); reflexivity).
  assert (Z : t = t').
  { apply (run_shown U U' L (c_sign_loop P) x y H _ _ _ _ [] [] A B). rewrite !app_nil_r, (sign_loop_shows _ _ _ _ _ A Ix), (sign_loop_shows _ _ _ _ _ B Iy). reflexivity. }
  rewrite A, B. cbn [observed]. rewrite Z. reflexivity.
Qed.
