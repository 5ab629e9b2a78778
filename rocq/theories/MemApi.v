(** Signing and verification release what they allocate. *)

From Coq Require Import List NArith Arith Bool Lia Permutation.
From Verif Require Import Base Params ParamFacts Memory MemSpec Tree Alloc AllocApi MemLogic MemRules MemObjects.
Import ListNotations.

Local Open Scope nat_scope.

(** ** Loops *)

Lemma tr_exit_true (body : nat -> M bool) (X Y : nat -> hp) Inv n i0 :
  (forall i, i0 <= i < i0 + n -> tr (X i :: Inv) (body i) (fun go => pure (go = true) :: Y i :: Inv)) ->
  tr (big X i0 n :: Inv) (mfor_exit n i0 body) (fun go => pure (go = true) :: big Y i0 n :: Inv).
Proof.
  revert i0. induction n as [|n IH]; intros i0 H; cbn [mfor_exit].
  - done_ret. apply entl_pure_r; [reflexivity|]. conv (big_O X i0). conv (big_O' Y i0). close.
  - conv (big_S X i0 n). front (X i0). apply (tr_step _ (X i0 :: Inv) [big X (S i0) n] _ (fun go => pure (go = true) :: Y i0 :: Inv)).
    + apply H. lia.
    + cbn [app]. apply perm_skip. symmetry. rewrite Permutation_app_comm. reflexivity.
    + intros v. cbn [app]. open_head. subst v.
      apply (tr_last _ (big X (S i0) n :: Inv) [Y i0] _ (fun go => pure (go = true) :: big Y (S i0) n :: Inv)).
      * apply IH. intros i Hi. apply H. lia.
      * change (Y i0 :: Inv ++ [big X (S i0) n]) with ((Y i0 :: Inv) ++ [big X (S i0) n]).
        rewrite Permutation_app_comm. cbn [app]. apply perm_skip. rewrite (Permutation_app_comm Inv [Y i0]). reflexivity.
      * intros v. cbn [app]. open_l. apply entl_pure_r; [assumption|]. 
        apply (entl_trans _ (Y i0 :: big Y (S i0) n :: Inv)).
        { apply entl_perm. change (big Y (S i0) n :: Inv ++ [Y i0]) with ((big Y (S i0) n :: Inv) ++ [Y i0]).
          rewrite Permutation_app_comm. reflexivity. }
        apply (entl_fold [Y i0; big Y (S i0) n]). apply big_S'.
Qed.
(** A loop that may be left at any point. *)
Lemma tr_exit_any (body : nat -> M bool) (X Y : nat -> hp) Inv n :
  (forall i, i < n -> tr (X i :: Inv) (body i) (fun _ => Y i :: Inv)) -> (forall i, i < n -> entl [X i] [Y i]) ->
  tr (big X 0 n :: Inv) (mfor_exit n 0 body) (fun _ => big Y 0 n :: Inv).
Proof.
  intros H HX. eapply tr_post.
  - apply (tr_mfor_exit body X Y Y Inv n 0 Inv).
    + intros i Hi. eapply tr_post; [apply H; lia|]. intros [|]; apply entl_refl.
    + intros i Hi. apply HX. lia.
    + intros. apply entl_refl.
  - intros [|]; apply entl_refl.
Qed.
Lemma tr_exit_ret (f : nat -> bool) n : tr [] (mfor_exit n 0 (fun t => ret (f t))) (fun go => [pure (go = forallb f (seq 0 n))]).
Proof.
  generalize 0 as i0. induction n as [|n IH]; intros i0; cbn [mfor_exit seq forallb].
  - exact (tr_pre _ _ _ _ (entl_pure_in _ _ eq_refl) (tr_ret true (fun go => [pure (go = true)]))).
  - apply (tr_bind _ _ (fun v => [pure (v = f i0)])).
    + exact (tr_pre _ _ _ _ (entl_pure_in _ _ eq_refl) (tr_ret (f i0) (fun go => [pure (go = f i0)]))).
    + intros v. open_head. subst v. destruct (f i0); cbn [andb]; [apply IH|].
      exact (tr_pre _ _ _ _ (entl_pure_in _ _ eq_refl) (tr_ret false (fun go => [pure (go = false)]))).
Qed.

(** A loop whose body gives a known result. *)
Lemma tr_exit_res (body : nat -> M bool) (f : nat -> bool) (X Y : nat -> hp) Inv n i0 :
  (forall i, i0 <= i < i0 + n -> tr (X i :: Inv) (body i) (fun go => pure (go = f i) :: Y i :: Inv)) ->
  (forall i, i0 <= i < i0 + n -> entl [X i] [Y i]) ->
  tr (big X i0 n :: Inv) (mfor_exit n i0 body) (fun go => pure (go = forallb f (seq i0 n)) :: big Y i0 n :: Inv).
Proof.
  revert i0. induction n as [|n IH]; intros i0 H HX; cbn [mfor_exit seq forallb].
  - done_ret. apply entl_pure_r; [reflexivity|]. conv (big_O X i0). conv (big_O' Y i0). close.
  - conv (big_S X i0 n). front (X i0). apply (tr_step _ (X i0 :: Inv) [big X (S i0) n] _ (fun go => pure (go = f i0) :: Y i0 :: Inv)).
    + apply H. lia.
    + cbn [app]. apply perm_skip. symmetry. rewrite Permutation_app_comm. reflexivity.
    + intros v. cbn [app]. open_head. subst v. destruct (f i0) eqn:Ef; cbn [andb].
      * apply (tr_last _ (big X (S i0) n :: Inv) [Y i0] _ (fun go => pure (go = forallb f (seq (S i0) n)) :: big Y (S i0) n :: Inv)).
        { apply IH; intros i Hi; [apply H|apply HX]; lia. }
        { change (Y i0 :: Inv ++ [big X (S i0) n]) with ((Y i0 :: Inv) ++ [big X (S i0) n]).
          rewrite Permutation_app_comm. cbn [app]. apply perm_skip. rewrite (Permutation_app_comm Inv [Y i0]). reflexivity. }
        { intros v. cbn [app]. open_l. apply entl_pure_r; [assumption|].
          apply (entl_trans _ (Y i0 :: big Y (S i0) n :: Inv)).
          { apply entl_perm. change (big Y (S i0) n :: Inv ++ [Y i0]) with ((big Y (S i0) n :: Inv) ++ [Y i0]).
            rewrite Permutation_app_comm. reflexivity. }
          apply (entl_fold [Y i0; big Y (S i0) n]). apply big_S'. }
      * done_ret. apply entl_pure_r; [reflexivity|].
        apply (entl_trans _ (Y i0 :: big X (S i0) n :: Inv)).
        { apply entl_perm. apply perm_skip. rewrite (Permutation_app_comm Inv). reflexivity. }
        apply (entl_trans _ (Y i0 :: big Y (S i0) n :: Inv)).
        { apply entl_cons, entl_head, big_mono. intros j Hj. apply HX. lia. }
        apply (entl_fold [Y i0; big Y (S i0) n]). apply big_S'.
Qed.

(** ** What is used of the parameter sets *)

Record memP (P : paramset) : Prop := mkMemP {
  mp_T : 0 < numMPCRounds P;
  mp_n : 0 < numMPCParties P;
  mp_d : digestSizeBytes P = 8 * (digestSizeBytes P / 8)
}.
Record memP3 (P : paramset) : Prop := mkMemP3 {
  m3_P : memP P;
  m3_an : numMPCParties P * andSizeBytes P = 8 * (numMPCParties P * andSizeBytes P / 8);
  m3_lT : 0 < ceil_log2_nat (numMPCRounds P);
  m3_ln : 0 < ceil_log2_nat (numMPCParties P);
  m3_NT : numMPCRounds P <= tree_nodes (numMPCRounds P);
  m3_Nn : numMPCParties P <= tree_nodes (numMPCParties P)
}.
Definition memP_b (P : paramset) : bool :=
  (0 <? numMPCRounds P) && (0 <? numMPCParties P) && (digestSizeBytes P =? 8 * (digestSizeBytes P / 8)).
Definition memP3_b (P : paramset) : bool :=
  (numMPCParties P * andSizeBytes P =? 8 * (numMPCParties P * andSizeBytes P / 8)) &&
  (0 <? ceil_log2_nat (numMPCRounds P)) && (0 <? ceil_log2_nat (numMPCParties P)) &&
  (numMPCRounds P <=? tree_nodes (numMPCRounds P)) && (numMPCParties P <=? tree_nodes (numMPCParties P)).

Lemma get_memP p P : get_param_set p = Some P -> memP P.
Proof.
  intros HP. assert (H : memP_b P = true) by (revert p P HP; apply (params_forall (fun _ P => memP_b P)); vm_compute; reflexivity).
  unfold memP_b in H. apply andb_true_iff in H. destruct H as [H H3]. apply andb_true_iff in H. destruct H as [H1 H2].
  apply Nat.ltb_lt in H1, H2. apply Nat.eqb_eq in H3. split; auto.
Qed.
Lemma get_memP3 p P : get_param_set p = Some P -> is_picnic3 p = true -> memP3 P.
Proof.
  intros HP H3. assert (H : negb (is_picnic3 p) || memP3_b P = true).
  { revert p P HP H3. intros p P HP _. revert p P HP. apply (params_forall (fun p P => negb (is_picnic3 p) || memP3_b P)). vm_compute. reflexivity. }
  rewrite H3 in H. cbn [negb orb] in H. unfold memP3_b in H. rewrite !andb_true_iff in H. destruct H as [[[[A1 A2] A3] A4] A5].
  apply Nat.eqb_eq in A1. apply Nat.ltb_lt in A2, A3. apply Nat.leb_le in A4, A5. split; auto. exact (get_memP p P HP).
Qed.

Section P.
Variable P : paramset.
Let T := numMPCRounds P.
Let n := numMPCParties P.
Let dg := digestSizeBytes P.
Let sz := seedSizeBytes P.

(** ** ZKB++ *)

Section Z.
Hypothesis HM : memP P.

Lemma tr_H3 : tr [] (H3_mem P) (fun _ => []).
Proof. unfold H3_mem. step (tr_malloc_opt (digestSizeBytes P)). last (tr_free_opt v). close. Qed.

Lemma tr_verify cmp : tr [] (verify_mem P cmp) (fun r => [pure (r = cmp)]).
Proof.
  destruct HM as [HT Hn Hd]. unfold verify_mem. fold T.
  step (tr_allocateCommitments P 0 Hd). rename v into as_.
  step (tr_allocateGCommitments P). rename v into gs.
  step (tr_malloc_opt (T * 3 * 8)). rename v into vo.
  step (tr_malloc_opt (Nat.max (6 * stateSizeBytes P) (stateSizeBytes P + andSizeBytes P))). rename v into tmp.
  step (tr_blk 24 true Undef). subst v. rename x into tape. change (24 / 8) with 3. conv (raw3 tape 0). cbn [Nat.add].
  step (tr_allocateRandomTape P tape 0). 
  step (tr_blk (T * 24) true Undef). subst v0. rename x into v1. unfold T. rewrite T24. fold T.
  step (tr_blk (T * 24) true Undef). subst v0. rename x into v2. unfold T. rewrite T24. fold T.
  step (tr_calloc_opt (stateSizeBytes P) T). rename v0 into slab.
  conv (raw_rows v1 T 3). conv (raw_rows v2 T 3). conv (big_zip (fun t => raw v2 (8 * 3 * t) 3) (fun t => raw v1 (8 * 3 * t) 3) 0 T).
  step (tr_mdo1 (fun i => allocateView P (Loc v1 0 +p 24 * i);;; allocateView P (Loc v2 0 +p 24 * i))
    (fun t => stars [raw v2 (8 * 3 * t) 3; raw v1 (8 * 3 * t) 3]) (fun t => stars [VIEW v2 (24 * t); VIEW v1 (24 * t)]) T _).
  { intros t _. cbn [plus Nat.add]. open_head. step (tr_allocateView P v1 (24 * t)). last (tr_allocateView P v2 (24 * t)). close. }
  step (tr_malloc_opt (numBytes (2 * T))). rename v3 into comp.
  step tr_H3. step (tr_free_opt comp). step (tr_free_opt slab). step (tr_freeCommitments P _ as_ HT Hd).
  step (tr_mdo1 (fun i => freeView (Loc v1 0 +p 24 * i);;; freeView (Loc v2 0 +p 24 * i))
    (fun t => stars [VIEW v2 (24 * t); VIEW v1 (24 * t)]) (fun t => stars [raw v2 (8 * 3 * t) 3; raw v1 (8 * 3 * t) 3]) T _).
  { intros t _. cbn [plus Nat.add]. open_head. step (tr_freeView v1 (24 * t)). last (tr_freeView v2 (24 * t)). close. }
  conv (big_unzip (fun t => raw v2 (8 * 3 * t) 3) (fun t => raw v1 (8 * 3 * t) 3) 0 T).
  conv (raw_rows' v1 T 3 (fun t => raw v1 (8 * 3 * t) 3) ltac:(intros; apply entl_refl)).
  conv (raw_rows' v2 T 3 (fun t => raw v2 (8 * 3 * t) 3) ltac:(intros; apply entl_refl)).
  step (tr_free_blk' v1 _ _ (T24 P)). step (tr_free_blk' v2 _ _ (T24 P)).
  step (tr_free_opt tmp). step (tr_freeRandomTape P tape 0 Hn). conv (raw3' tape 0).
  step (tr_free_blk' tape 24 3 eq_refl). step (tr_freeGCommitments P gs HT). step (tr_free_opt vo).
  done_ret. apply entl_pure_in. reflexivity.
Qed.

(** What [sign_picnic1] does not release when the simulation of a round fails. *)
Definition LEAK : hp := ex (fun views => ex (fun as_ => ex (fun gs => ex (fun seeds => ex (fun tmp => ex (fun ba => ex (fun bs =>
  stars [SEEDS P seeds; VIEWS P views; COMMITS P n as_; GCOMS P gs; opt tmp; TAPES P ba bs]))))))).

Lemma tr_store_any' b o q : tr [any b o] (store (Loc b o) q) (fun _ => [any b o]).
Proof. eapply tr_post; [apply tr_store_any|]. intros v. apply at_any. Qed.

(** Reading a pointer that may be freed later. *)
Lemma tr_load_ofld b o : tr [ofld b o] (load (Loc b o)) (fun _ => [ofld b o]).
Proof.
  unfold ofld at 1. open_head. last (tr_load b o x). open_l. subst v. apply (entl_ex_r _ x). close.
Qed.

Lemma tr_viewOutputs views vo : tr [VIEWS P views; raw vo 0 (T * 3)]
  (mdo T (fun i => mdo 3 (fun j =>
    v <~ load (views +p 8 * i);;
    o <~ load (v +p (24 * j + 16));;
    store (Loc vo 0 +p (24 * i + 8 * j)) o))) (fun _ => [VIEWS P views; raw vo 0 (T * 3)]).
Proof.
  unfold VIEWS at 1. open_head. subst views. rename x into b. conv (raw_rows vo T 3).
  conv (big_zip (fun t => raw vo (8 * 3 * t) 3) (VROW b) 0 T).
  last (tr_mdo1 _ (fun t => stars [raw vo (8 * 3 * t) 3; VROW b t]) (fun t => stars [raw vo (8 * 3 * t) 3; VROW b t]) T _).
  - intros i _. open_head. unfold VROW at 1. open_head. rename x into v.
    conv (big_zip (fun j => any vo (24 * i + 8 * j)) (fun j => VIEW v (24 * j)) 0 3). cbn [plus Nat.add].
    last (tr_mdo _ (fun j => stars [any vo (24 * i + 8 * j); VIEW v (24 * j)])
      (fun j => stars [any vo (24 * i + 8 * j); VIEW v (24 * j)]) [at_ b (8 * i) (Ptr (Loc v 0))] 3 _).
    + intros j _. open_head. step (tr_load b (8 * i) (Loc v 0)). subst v0. unfold VIEW at 1. open_head. cbn [plus Nat.add].
      step (tr_load_ofld v (24 * j + 16)). cbn [plus Nat.add]. last (tr_store_any' vo (24 * i + 8 * j) v0). unfold VIEW. close.
    + conv (big_unzip (fun j => any vo (24 * i + 8 * j)) (fun j => VIEW v (24 * j)) 0 3).
      apply entl_stars_r. cbn [app]. eapply entl_take; [find1|]. apply (entl_ex_r _ v). close.
  - conv (big_unzip (fun t => raw vo (8 * 3 * t) 3) (VROW b) 0 T).
    conv (raw_rows' vo T 3 (fun t => raw vo (8 * 3 * t) 3) ltac:(intros; apply entl_refl)).
    apply (entl_ex_r _ b). apply entl_stars_r. cbn [app]. apply entl_pure_r; [reflexivity|]. close.
Qed.

Lemma tr_sign_picnic1 g : tr [] (sign_picnic1_mem P g)
  (fun r => pure (r = forallb (g_sim g) (seq 0 T)) :: if r then [] else [LEAK]).
Proof.
  destruct HM as [HT Hn Hd]. unfold sign_picnic1_mem. fold T.
  step (tr_allocateViews P). rename v into views.
  step (tr_allocateCommitments P 0 Hd). rename v into as_.
  step (tr_allocateGCommitments P). rename v into gs.
  step (tr_allocateSeeds P). rename v into seeds.
  assert (HS : tr [SEEDS P seeds] (load (seeds +p (16 * T + 8))) (fun _ => [SEEDS P seeds])).
  { unfold SEEDS at 1. open_head. subst seeds. cbn [plus Nat.add].
    last (tr_load x (16 * T + 8) _). open_l. unfold SEEDS.
    apply (entl_ex_r _ x), (entl_ex_r _ x0), (entl_ex_r _ x1), (entl_ex_r _ x2), entl_stars_r. cbn [app]. apply entl_pure_r; [reflexivity|]. close. }
  step HS. clear HS v.
  step (tr_blk 24 false Undef). subst v. rename x into tape. change (24 / 8) with 3. conv (raw3 tape 0). cbn [Nat.add].
  step (tr_allocateRandomTape P tape 0). clear v.
  step (tr_malloc_opt (Nat.max (9 * stateSizeBytes P) (stateSizeBytes P + andSizeBytes P))). rename v into tmp.
  step (tr_exit_ret (g_sim g) T). destruct v; cbn [negb].
  - step (tr_blk (T * 3 * 8) true Undef). subst v. rename x into vo. rewrite mul8.
    step (tr_viewOutputs views vo). step (tr_H3). step (tr_free_opt tmp). step (tr_freeViews P views).
    step (tr_freeCommitments P _ as_ HT Hd). step (tr_freeRandomTape P tape 0 Hn). step (tr_freeGCommitments P gs HT).
    step (tr_free_blk' vo _ _ (mul8 (T * 3))). step (tr_freeSeeds P seeds HT Hn). conv (raw3' tape 0).
    step (tr_local_end tape 24). done_ret. apply entl_pure_in. assumption.
  - unfold TAPE. open_head. rename x into ba, x0 into bs. conv (at_any tape 0 (Ptr (Loc ba 0))). conv (raw3' tape 0).
    step (tr_local_end tape 24). done_ret. apply entl_pure_r; [assumption|].
    apply (entl_ex_r _ views), (entl_ex_r _ as_), (entl_ex_r _ gs), (entl_ex_r _ seeds), (entl_ex_r _ tmp), (entl_ex_r _ ba), (entl_ex_r _ bs).
    close.
Qed.
End Z.

(** ** Picnic3 *)

Section K.
Hypothesis H3 : memP3 P.
Let HM := m3_P P H3.
Let HT : 0 < T := mp_T P HM.
Let Hn : 0 < n := mp_n P HM.
Let Hd : dg = 8 * (dg / 8) := mp_d P HM.
Let NT := tree_nodes T.
Let Nn := tree_nodes n.
Lemma NT_pos : 0 < NT.
Proof. pose proof (m3_NT P H3). unfold NT, T in *. lia. Qed.
Lemma Nn_pos : 0 < Nn.
Proof. pose proof (m3_Nn P H3). unfold Nn, n in *. lia. Qed.

Lemma tr_expandChallengeHash : tr [] (expandChallengeHash_mem P) (fun _ => []).
Proof. unfold expandChallengeHash_mem. step (tr_calloc_opt _ 2). last (tr_free_opt v). close. Qed.

Lemma tr_deserializeSignature2 v b :
  tr [SIG2N P b] (deserializeSignature2_mem P v (Loc b 0)) (fun r => [pure (r = parses P v); SIG2X P b]).
Proof.
  unfold deserializeSignature2_mem, parses. fold T n. destruct (v_short v); cbn [negb andb].
  { done_ret. apply entl_pure_r; [reflexivity|]. apply SIG2N_X. }
  step tr_expandChallengeHash. step (tr_revealSeedsSize P T (numOpenedRounds P) (m3_lT P H3) NT_pos).
  unfold getMissingLeavesList_mem. step (tr_calloc_opt (numMPCRounds P - numOpenedRounds P) 2). rename v2 into ml.
  step (tr_openMerkleTreeSize P T NT_pos). step (tr_free_opt ml). step (tr_revealSeedsSize P n 1 (m3_ln P H3) Nn_pos).
  destruct (v_len v); cbn [negb andb]; [|done_ret; apply entl_pure_r; [reflexivity|apply SIG2N_X]].
  conv (SIG2N_F P b). unfold SIG2F, SIG2. fold T. open_head. rename x into bp. cbn [plus Nat.add].
  do 2 (eapply tr_set; [apply tr_malloc_opt|find1|]).
  last (tr_exit_res _ (fun t => negb (v_open v t && v_pad v t)) (fun t => NULLS bp (48 * t) 6) (fun t => PROOF2 bp (48 * t))
    [at_ b 64 (Ptr (Loc bp 0))] T 0 _ _).
  - intros t _. destruct (v_open v t); cbn [andb negb].
    + step (tr_load b 64 (Loc bp 0)). subst v5. cbn [plus Nat.add]. conv (nulls_raw bp (48 * t) 6).
      step (tr_allocateProof2 P bp (48 * t)). unfold PROOF2N. open_head.
      eapply tr_set; [apply tr_malloc_opt|find1|]. done_ret. apply entl_pure_r; [reflexivity|]. unfold PROOF2. close.
    + done_ret. apply entl_pure_r; [reflexivity|]. apply entl_head, nulls_proof2.
  - intros t _. apply nulls_proof2.
  - open_l. apply entl_pure_r; [assumption|]. unfold SIG2X, SIG2. fold T. apply (entl_ex_r _ bp). close.
Qed.

(** The rounds' seed trees and tapes. *)
Definition STREE (b t : nat) : hp := ex (fun p => stars [at_ b (8 * t) (Ptr p); TREE Nn sz p]).
Definition TROW (b t : nat) : hp := stars [TAPE P b (24 * t); any b (24 * t + 8); any b (24 * t + 16)].

Lemma tr_createRandomTapes b o bt ba bs : tr [any b o; TREEB Nn sz bt ba bs]
  (createRandomTapes_mem P (Loc b o) (Loc ba (8 * (Nn - n)))) (fun _ => [TAPE P b o; TREEB Nn sz bt ba bs]).
Proof.
  unfold createRandomTapes_mem. fold n. step (tr_allocateRandomTape P b o).
  assert (HL : tr [TREEB Nn sz bt ba bs] (mdo n (fun i => load (Loc ba (8 * (Nn - n)) +p 8 * i);;; ret tt)) (fun _ => [TREEB Nn sz bt ba bs])).
  { apply (tr_pre _ [big (fun _ => emp) 0 n; TREEB Nn sz bt ba bs]).
    - assert (He : forall k i, entl [] [big (fun _ => emp) i k]).
      { induction k as [|k IH]; intros i; [apply big_O'|]. eapply entl_trans; [|apply big_S'].
        apply (entl_trans _ [big (fun _ => emp) (S i) k]); [apply IH|apply emp_in]. }
      apply (entl_app [] [_] [_] [_] (He n 0) (entl_refl _)).
    - eapply tr_post; [apply (tr_mdo _ (fun _ => emp) (fun _ => emp) [TREEB Nn sz bt ba bs] n)|].
      + intros i Hi. step (tr_leaf Nn sz n bt ba bs i (m3_Nn P H3) Hi). done_ret. close.
      + intros v0. assert (He : forall k i, entl [big (fun _ => emp) i k] []).
        { induction k as [|k IH]; intros i; [apply big_O|]. eapply entl_trans; [apply big_S|].
          apply (entl_trans _ [big (fun _ => emp) (S i) k]); [apply emp_out|apply IH]. }
        apply (entl_app [_] [_] [] [_] (He n 0) (entl_refl _)). }
  last HL. close.
Qed.

(** Releasing the tapes and the seed trees. *)
Lemma tr_free_rounds seeds tapes :
  tr [big (fun t => stars [TROW tapes t; STREE seeds t]) 0 T]
     (mdo T (fun t => freeRandomTape (Loc tapes 0 +p 24 * t);;; s <~ load (Loc seeds 0 +p 8 * t);; freeTree s))
     (fun _ => [raw tapes 0 (T * 3); raw seeds 0 T]).
Proof.
  eapply tr_post.
  - apply (tr_mdo1 _ _ (fun t => stars [raw tapes (8 * 3 * t) 3; any seeds (0 + 8 * t)])). intros t _. cbn [plus Nat.add]. open_head.
    unfold TROW, STREE. open_head. rename x into p. step (tr_freeRandomTape P tapes (24 * t) Hn).
    step (tr_load seeds (8 * t) p). subst v0. last (tr_freeTree Nn sz p Nn_pos).
    conv (raw3' tapes (24 * t)). conv (at_any seeds (8 * t) (Ptr p)). close.
  - intros v. conv (big_unzip (fun t => raw tapes (8 * 3 * t) 3) (fun t => any seeds (0 + 8 * t)) 0 T).
    conv (raw_rows' tapes T 3 (fun t => raw tapes (8 * 3 * t) 3) ltac:(intros; apply entl_refl)). unfold raw. close.
Qed.

Lemma tr_verify_body v Ch Cv treeCv seeds tapes it :
  v_rs0 v = true -> (forall t, t < T -> v_open v t = true -> v_rs v t = true) ->
  tr [any Ch 0; any Cv 0; raw seeds 0 T; raw tapes 0 (T * 3); TREE NT sz it]
     (verify_picnic3_body P v (Loc Ch 0) (Loc Cv 0) treeCv (Loc seeds 0) (Loc tapes 0) it)
     (fun r => [pure (r = accepts P v); ofld Ch 0; ofld Cv 0; big (fun t => stars [TROW tapes t; STREE seeds t]) 0 T; TREE NT sz it]).
Proof.
  intros R0 R1. unfold verify_picnic3_body. fold T n sz. rewrite R0. cbn [negb].
  step (tr_revealSeeds T (numOpenedRounds P) (m3_lT P H3)).
  step (tr_exit_true _ (fun t => any seeds (0 + 8 * t)) (STREE seeds) [TREE NT sz it] T 0 _).
  { intros t Ht. cbn [Nat.add plus]. destruct (v_open v t) eqn:Eo; cbn [negb].
    - step (tr_createTree n sz). rename v1 into p. step (tr_store_any seeds (8 * t) p). step (tr_revealSeeds n 1 (m3_ln P H3)).
      rewrite R1 by (assumption || lia). done_ret. apply entl_pure_r; [reflexivity|]. unfold STREE.
      apply (entl_ex_r _ p). close.
    - step (tr_getLeaf NT sz T t it eq_refl (m3_NT P H3) ltac:(lia)). unfold generateSeeds_mem. fold sz.
      step (tr_createTree n sz). rename v2 into p. step (tr_store_any seeds (8 * t) p).
      done_ret. apply entl_pure_r; [reflexivity|]. unfold STREE. apply (entl_ex_r _ p). close. }
  subst v1. cbn [negb]. conv (raw_rows tapes T 3).
  conv (big_zip (fun t => raw tapes (8 * 3 * t) 3) (STREE seeds) 0 T).
  step (tr_mdo1 _ (fun t => stars [raw tapes (8 * 3 * t) 3; STREE seeds t]) (fun t => stars [TROW tapes t; STREE seeds t]) T _).
  { intros t _. cbn [plus Nat.add]. open_head. unfold STREE at 1, TREE. open_head. subst x. rename x0 into bt, x1 into ba, x2 into bs.
    step (tr_load seeds (8 * t) (Loc bt 0)). subst v1.
    step (tr_getLeaves Nn sz n bt ba bs eq_refl). subst v1. conv (raw3 tapes (24 * t)).
    last (tr_createRandomTapes tapes (24 * t) bt ba bs). unfold TROW, STREE. close.
    apply (entl_ex_r _ (Loc bt 0)). close. apply (entl_ex_r _ bt), (entl_ex_r _ ba), (entl_ex_r _ bs), entl_stars_r. cbn [app].
    apply entl_pure_r; [reflexivity|]. close. }
  step (tr_allocateCommitments2 P T Ch 0 Hd). step (tr_allocateCommitments2 P T Cv 0 Hd).
  step (tr_allocateShares (stateSizeBits P)). rename v4 into sh.
  conv (COMMIT2_free P T Ch 0 Hd). unfold COMMIT2. fold dg. open_head. rename x into bs. conv (ptrs_raw bs 0 bs (T * 8) dg T).
  step (tr_exit_res _ (fun t => negb (v_open v t) || v_sim v t) (fun t => any bs (0 + 8 * t)) (fun t => any bs (0 + 8 * t))
    [at_ Cv 0 (Ptr (Loc bs 0))] T 0 _ _).
  { intros t _. destruct (v_open v t); cbn [negb orb]; [done_ret; apply entl_pure_r; [reflexivity|]; close|].
    step (tr_load Cv 0 (Loc bs 0)). subst v4. cbn [plus Nat.add].
    step (tr_store_any' bs (8 * t) Null). done_ret. apply entl_pure_r; [reflexivity|]. close. }
  { intros. apply entl_refl. }
  step (tr_freeShares sh).
  change (big (fun t => any bs (0 + 8 * t)) 0 T) with (raw bs 0 T).
  conv (raw_add' bs 0 T ((T * dg + T * 8) / 8 - T)). pose proof (cw2_div P T Hd) as Hc. fold dg in Hc. rewrite <- Hc. clear Hc.
  assert (HC : entl [at_ Cv 0 (Ptr (Loc bs 0)); tok bs (T * dg + T * 8) true; raw bs 0 ((T * dg + T * 8) / 8)] [ofld Cv 0]).
  { apply (entl_ex_r _ (Loc bs 0)). cbn [opt]. apply entl_stars_r. cbn [app]. eapply entl_take; [find1|].
    apply (entl_ex_r _ (T * dg + T * 8)). unfold blkc. close. }
  conv HC. assert (HA : accepts P v = v4 && (v_add v && v_ver v && v_cmp v)) by (subst v4; reflexivity).
  rewrite HA. destruct v4; cbn [negb andb]; [|done_ret; apply entl_pure_r; [reflexivity|]; close].
  unfold getMissingLeavesList_mem. step (tr_calloc_opt (numMPCRounds P - numOpenedRounds P) 2). rename v4 into ml.
  step (tr_addMerkleNodes T). step (tr_free_opt ml). done_ret. apply entl_pure_r; [reflexivity|]. close.
Qed.

Lemma tr_verify_picnic3 v : v_rs0 v = true -> (forall t, t < T -> v_open v t = true -> v_rs v t = true) ->
  tr [] (verify_picnic3_mem P v) (fun r => [pure (r = accepts P v)]).
Proof.
  intros R0 R1. unfold verify_picnic3_mem. fold T sz dg.
  step (tr_allocateCommitments P 0 Hd). rename v0 into C.
  step (tr_blk 16 false (Ptr Null)). subst v0. rename x into Ch. step (tr_blk 16 false (Ptr Null)). subst v0. rename x into Cv.
  change (16 / 8) with 2. conv (raw2 Ch 0). conv (raw2 Cv 0). cbn [Nat.add].
  step (tr_allocateMsgs P (m3_an P H3)). rename v0 into msgs.
  step (tr_createTree T dg). rename v0 into treeCv.
  step (tr_blk (T * 8) true (Ptr Null)). subst v0. rename x into seeds. rewrite mul8.
  step (tr_blk (T * 24) true Undef). subst v0. rename x into tapes. unfold T. rewrite T24. fold T.
  step (tr_createTree T sz). rename v0 into it.
  step (tr_verify_body v Ch Cv treeCv seeds tapes it R0 R1).
  step (tr_freeCommitments P _ C HT Hd). step (tr_freeCommitments2 Cv 0). step (tr_freeCommitments2 Ch 0).
  step (tr_freeMsgs P msgs HT (m3_an P H3)). step (tr_freeTree _ dg treeCv NT_pos). step (tr_freeTree _ sz it NT_pos).
  step (tr_free_rounds seeds tapes). step (tr_free_blk' seeds _ _ (mul8 T)). step (tr_free_blk' tapes _ _ (T24 P)).
  conv (raw2' Ch 0). conv (raw2' Cv 0). step (tr_local_end Ch 16). step (tr_local_end Cv 16). done_ret. apply entl_pure_r; [assumption|]. close.
Qed.

(** A tree that may be absent. *)
Definition OTREE (N ds : nat) (p : ptr) : hp := match p with Null => emp | _ => TREE N ds p end.
Lemma tr_freeTree_opt N ds p : 0 < N -> tr [OTREE N ds p] (freeTree p) (fun _ => []).
Proof.
  intros HN. destruct p as [|b o]; cbn [OTREE].
  - apply (tr_pre _ []); [apply emp_out|]. exact (tr_ret tt (fun _ => [])).
  - apply tr_freeTree. exact HN.
Qed.

Lemma tr_shrink {A} b o k (c : M A) l r Q : Permutation l (ofld b o :: r) -> tr (ofld b o :: r) c Q ->
  tr l (p <~ load (Loc b o);; p <~ realloc p k;; store (Loc b o) p;;; c) Q.
Proof.
  intros Hp Hk. apply (tr_pre _ (ofld b o :: r)); [apply entl_perm, Hp|]. unfold ofld at 1. open_head.
  step (tr_load b o x). subst v. step (tr_realloc x k). step (tr_store b o (Ptr x) v).
  apply (tr_pre _ (ofld b o :: r)); [|exact Hk]. apply (entl_ex_r _ v). close.
Qed.

Lemma tr_sign_body g b Ch Cv :
  tr [SIG2N P b; at_ Ch 0 (Ptr Null); at_ Cv 0 (Ptr Null)] (sign_picnic3_body P g (Loc b 0) (Loc Ch 0) (Loc Cv 0))
     (fun r => [pure (fst r = forallb (g_sim g) (seq 0 T)); SIG2X P b; ofld Ch 0; ofld Cv 0; OTREE NT dg (snd r)]).
Proof.
  unfold sign_picnic3_body. fold T n sz dg. step (tr_allocateShares (stateSizeBits P)). rename v into sh.
  step (tr_exit_ret (g_sim g) T). step (tr_freeShares sh). destruct v; cbn [negb].
  2:{ done_ret. cbn [fst snd OTREE]. apply entl_pure_r; [assumption|]. conv (null_ofld Ch 0). conv (null_ofld Cv 0). conv (SIG2N_X P b). close. apply emp_in. }
  conv (at_any Ch 0 (Ptr Null)). conv (at_any Cv 0 (Ptr Null)).
  step (tr_allocateCommitments2 P T Ch 0 Hd). step (tr_allocateCommitments2 P T Cv 0 Hd).
  conv (COMMIT2_free P T Ch 0 Hd). conv (COMMIT2_free P T Cv 0 Hd).
  step (tr_createTree T dg). rename v2 into treeCv. step tr_expandChallengeHash.
  unfold getMissingLeavesList_mem. step (tr_calloc_opt (numMPCRounds P - numOpenedRounds P) 2). rename v3 into ml.
  conv (SIG2N_F P b). unfold SIG2F, SIG2. fold T. open_head. rename x into bp. cbn [plus Nat.add].
  eapply tr_set; [apply tr_openMerkleTree|find1|]. step (tr_free_opt ml).
  eapply tr_set; [apply tr_malloc_opt|find1|]. step (tr_revealSeeds T (numOpenedRounds P) (m3_lT P H3)).
  eapply (tr_shrink b 8); [find1|].
  step (tr_mdo _ (fun t => NULLS bp (48 * t) 6) (fun t => PROOF2 bp (48 * t)) [at_ b 64 (Ptr (Loc bp 0))] T _).
  - intros t _. destruct (g_open g t).
    + step (tr_load b 64 (Loc bp 0)). subst v5. cbn [plus Nat.add]. conv (nulls_raw bp (48 * t) 6).
      step (tr_allocateProof2 P bp (48 * t)). unfold PROOF2N. open_head.
      eapply tr_set; [apply tr_malloc_opt|find1|]. step (tr_revealSeeds n 1 (m3_ln P H3)).
      unfold ofld at 1. open_head.
      step (tr_load bp (48 * t) x). subst v7. step (tr_realloc x (g_sLen g t)). last (tr_store bp (48 * t) (Ptr x) v7).
      unfold PROOF2. close. apply (entl_ex_r _ v7). close.
    + done_ret. apply entl_head, nulls_proof2.
  - done_ret. cbn [fst snd]. apply entl_pure_r; [assumption|].
    assert (HO : entl [TREE (tree_nodes T) dg treeCv] [OTREE NT dg treeCv]).
    { destruct treeCv; cbn [OTREE]; [|apply entl_refl]. unfold TREE. open_l. discriminate. }
    conv HO. unfold SIG2X, SIG2. fold T. close. apply (entl_ex_r _ bp). close.
Qed.

Lemma tr_local_zero16 : tr [] (local_zero 16)
  (fun p => [ex (fun b => stars [pure (p = Loc b 0); tok b 16 false; at_ b 0 (Ptr Null); any b 8])]).
Proof.
  eapply tr_post; [apply (tr_new 16 false (Ptr Null))|]. intros p. cbv beta. open_l. apply (entl_ex_r _ x). apply entl_stars_r. cbn [app].
  apply entl_pure_r; [assumption|]. change (16 / 8) with 2.
  conv (big_S (fun i => at_ x (8 * i) (Ptr Null)) 0 1). conv (big_S (fun i => at_ x (8 * i) (Ptr Null)) 1 0).
  conv (big_O (fun i => at_ x (8 * i) (Ptr Null)) 2). cbn [Nat.mul Nat.add]. conv (at_any x 8 (Ptr Null)). close.
Qed.

Lemma tr_sign_picnic3 g b :
  tr [SIG2N P b] (sign_picnic3_mem P g (Loc b 0)) (fun r => [pure (r = forallb (g_sim g) (seq 0 T)); SIG2X P b]).
Proof.
  unfold sign_picnic3_mem. fold T n sz dg.
  step tr_local_zero16. subst v. rename x into Ch. step tr_local_zero16. subst v. rename x into Cv.
  step (tr_malloc_opt (saltSizeBytes P + sz)). rename v into sr. unfold generateSeeds_mem at 1. fold sz.
  step (tr_createTree T sz). rename v into it. unfold TREE at 1. open_head. subst it. rename x into bi, x0 into bia, x1 into bis.
  step (tr_getLeaves NT sz T bi bia bis eq_refl). subst v. step (tr_free_opt sr).
  step (tr_blk (T * 24) true Undef). subst v0. rename x into tapes. unfold T. rewrite T24. fold T.
  step (tr_blk (T * 8) true Undef). subst v0. rename x into seeds. rewrite mul8.
  conv (raw_rows tapes T 3). unfold raw at 1. conv (big_zip (fun t => raw tapes (8 * 3 * t) 3) (fun t => any seeds (0 + 8 * t)) 0 T).
  step (tr_mdo _ (fun t => stars [raw tapes (8 * 3 * t) 3; any seeds (0 + 8 * t)]) (fun t => stars [TROW tapes t; STREE seeds t])
    [TREEB NT sz bi bia bis] T _).
  { intros t Ht. cbn [plus Nat.add]. open_head. step (tr_leaf NT sz T bi bia bis t (m3_NT P H3) Ht).
    unfold generateSeeds_mem. fold sz. step (tr_createTree n sz). unfold TREE at 1. open_head. subst v1. rename x into bt, x0 into ba, x1 into bs.
    step (tr_store_any seeds (8 * t) (Loc bt 0)).
    step (tr_getLeaves Nn sz n bt ba bs eq_refl). subst v2. conv (raw3 tapes (24 * t)).
    last (tr_createRandomTapes tapes (24 * t) bt ba bs). unfold TROW, STREE. close.
    apply (entl_ex_r _ (Loc bt 0)). close. apply (entl_ex_r _ bt), (entl_ex_r _ ba), (entl_ex_r _ bs), entl_stars_r. cbn [app].
    apply entl_pure_r; [reflexivity|]. close. }
  step (tr_allocateInputs P). rename v1 into ip. step (tr_allocateCommitments P 0 Hd). rename v1 into C.
  step (tr_allocateMsgs P (m3_an P H3)). rename v1 into msgs.
  step (tr_sign_body g b Ch Cv). destruct v1 as [ok treeCv]. cbn [fst snd] in *.
  step (tr_free_rounds seeds tapes). step (tr_free_blk' tapes _ _ (T24 P)). step (tr_free_blk' seeds _ _ (mul8 T)).
  assert (HTr : entl [TREEB NT sz bi bia bis] [TREE NT sz (Loc bi 0)]).
  { apply (entl_ex_r _ bi), (entl_ex_r _ bia), (entl_ex_r _ bis), entl_stars_r. cbn [app]. apply entl_pure_r; [reflexivity|]. close. }
  conv HTr. step (tr_freeTree _ sz (Loc bi 0) NT_pos). step (tr_freeTree_opt _ dg treeCv NT_pos).
  step (tr_freeCommitments P _ C HT Hd). step (tr_freeCommitments2 Ch 0). step (tr_freeCommitments2 Cv 0).
  step (tr_freeInputs P ip). step (tr_freeMsgs P msgs HT (m3_an P H3)).
  conv (raw2' Ch 0). conv (raw2' Cv 0). step (tr_local_end Ch 16). step (tr_local_end Cv 16). done_ret.
  apply entl_pure_r; [assumption|]. close.
Qed.
End K.
End P.
