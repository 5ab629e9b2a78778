(** The memory properties of picnic_sign and picnic_verify. *)

From Coq Require Import List NArith Arith Bool Lia Permutation.
From Verif Require Import Base Params Env Spec LowMC Tree Picnic3 Api BaseFacts ParamFacts P3Tape P3Verify P3Codec.
From Verif Require Import Memory MemSpec Tree Alloc AllocApi MemLogic MemRules MemObjects MemApi.
Import ListNotations.

Local Open Scope nat_scope.

(** From a triple without precondition to the statement about memories. *)
Lemma tr_no_block {A} (f : M A) (Q : A -> Prop) m : tr [] f (fun r => [pure (Q r)]) -> mem_wf m -> leaves_no_block f m Q.
Proof.
  intros H W. destruct (H m (eq (live m)) W) as (r & m' & He & W' & Hh).
  - cbn [app]. apply holds_cons. exists (live m), []. rewrite app_nil_r. split; [reflexivity|]. split; [reflexivity|]. apply holds_nil. reflexivity.
  - exists r, m'. cbn [app] in Hh. apply holds_pure in Hh. destruct Hh as [HQ Hh]. apply holds_cons in Hh.
    destruct Hh as (L1 & L2 & Hp & <- & Hn). apply holds_nil in Hn. subst L2. rewrite app_nil_r in Hp. auto.
Qed.

Lemma tr_picnic_verify1 p P des v : get_param_set p = Some P -> is_picnic3 p = false ->
  tr [] (picnic_verify_mem p des v) (fun r => [pure (r = des && v_cmp v)]).
Proof.
  intros HP H3. pose proof (get_memP p P HP) as HM. unfold picnic_verify_mem. rewrite HP, H3. cbn [negb].
  step (tr_blk 24 true Undef). subst v0. rename x into b. change (24 / 8) with 3.
  step (tr_allocateSignature P b). cbn [is_null].
  assert (Hr : tr [] (if des then verify_mem P (v_cmp v) else ret false) (fun r => [pure (r = des && v_cmp v)])).
  { destruct des; cbn [andb].
    - apply (tr_verify P HM).
    - exact (tr_pre _ _ _ _ (entl_pure_in _ _ eq_refl) (tr_ret false (fun r => [pure (r = false)]))). }
  step Hr. step (tr_freeSignature P b). step (tr_free_blk' b 24 3 eq_refl). done_ret. apply entl_pure_r; [assumption|]. close.
Qed.

Lemma tr_picnic_verify3 p P des v : get_param_set p = Some P -> is_picnic3 p = true ->
  (parses P v = true -> v_rs0 v = true /\ forall t, t < numMPCRounds P -> v_open v t = true -> v_rs v t = true) ->
  tr [] (picnic_verify_mem p des v) (fun r => [pure (r = parses P v && accepts P v)]).
Proof.
  intros HP H3 Hv. pose proof (get_memP3 p P HP H3) as HM. unfold picnic_verify_mem. rewrite HP, H3. cbn [negb].
  step (tr_blk 72 true Undef). subst v0. rename x into b. change (72 / 8) with 9.
  step (tr_allocateSignature2 P b). cbn [is_null]. step (tr_deserializeSignature2 P HM v b). subst v1.
  assert (Hr : tr [] (if parses P v then verify_picnic3_mem P v else ret false) (fun r => [pure (r = parses P v && accepts P v)])).
  { destruct (parses P v).
    - destruct (Hv eq_refl) as [R0 R1]. exact (tr_verify_picnic3 P HM v R0 R1).
    - exact (tr_pre _ _ _ _ (entl_pure_in _ _ eq_refl) (tr_ret false (fun r => [pure (r = false && accepts P v)]))). }
  step Hr. step (tr_freeSignature2 P b). step (tr_free_blk' b 72 9 eq_refl). done_ret. apply entl_pure_r; [assumption|]. close.
Qed.

Lemma tr_picnic_sign1 p P g : get_param_set p = Some P -> is_picnic3 p = false ->
  tr [] (picnic_sign_mem p g) (fun r => pure (r = forallb (g_sim g) (seq 0 (numMPCRounds P)) && g_ser g) ::
    if forallb (g_sim g) (seq 0 (numMPCRounds P)) then [] else [LEAK P]).
Proof.
  intros HP H3. pose proof (get_memP p P HP) as HM. unfold picnic_sign_mem. rewrite HP, H3. cbn [negb].
  step (tr_blk 24 true Undef). subst v. rename x into b. change (24 / 8) with 3.
  step (tr_allocateSignature P b). cbn [is_null]. step (tr_sign_picnic1 P HM g). subst v0.
  destruct (forallb (g_sim g) (seq 0 (numMPCRounds P))); cbn [app andb];
    (step (tr_freeSignature P b); step (tr_free_blk' b 24 3 eq_refl); done_ret; apply entl_pure_r; [reflexivity|]; close).
Qed.

Lemma tr_picnic_sign3 p P g : get_param_set p = Some P -> is_picnic3 p = true ->
  tr [] (picnic_sign_mem p g) (fun r => [pure (r = forallb (g_sim g) (seq 0 (numMPCRounds P)) && g_ser g)]).
Proof.
  intros HP H3. pose proof (get_memP3 p P HP H3) as HM. unfold picnic_sign_mem. rewrite HP, H3. cbn [negb].
  step (tr_blk 72 true Undef). subst v. rename x into b. change (72 / 8) with 9.
  step (tr_allocateSignature2 P b). cbn [is_null]. step (tr_sign_picnic3 P HM g b). subst v0.
  step (tr_freeSignature2 P b). step (tr_free_blk' b 72 9 eq_refl). done_ret. apply entl_pure_r; [reflexivity|]. close.
Qed.

(** From a triple that leaves the seeds to the statement about memories. *)
Lemma holds_tok b n h l L : holds (tok b n h :: l) L -> exists L2, Permutation L (Tok b n h :: L2) /\ holds l L2.
Proof. intros H. apply holds_cons in H. destruct H as (L1 & L2 & Hp & -> & Hl). exists L2. auto. Qed.

(** Anything. *)
Definition rest_ : hp := fun _ => True.
Lemma entl_rest l : entl l [rest_].
Proof. intros L _. apply holds_cons. exists L, []. rewrite app_nil_r. split; [reflexivity|]. split; [exact I|]. apply holds_nil. reflexivity. Qed.

Definition leaked (n : nat) : hp := ex (fun b => stars [tok b n true; rest_]).

Lemma tr_leaked {A} n (f : M A) (Q : A -> Prop) m : tr [] f (fun r => [pure (Q r); leaked n]) -> mem_wf m ->
  leaves_block n f m Q.
Proof.
  intros H W. destruct (H m (eq (live m)) W) as (r & m' & He & W' & Hh).
  - cbn [app]. apply holds_cons. exists (live m), []. rewrite app_nil_r. split; [reflexivity|]. split; [reflexivity|]. apply holds_nil. reflexivity.
  - cbn [app] in Hh. apply holds_pure in Hh. destruct Hh as [HQ Hh].
    assert (Hs : entl [leaked n; eq (live m)] [ex (fun b => stars [tok b n true; eq (live m); rest_])]).
    { unfold leaked. open_l. apply (entl_ex_r _ x), entl_stars_r. cbn [app]. close. }
    apply Hs in Hh. apply holds_ex in Hh. destruct Hh as [b Hh]. apply (holds_stars _ []) in Hh. cbn [app] in Hh.
    apply holds_tok in Hh. destruct Hh as (L2 & Hp & Hh). apply holds_cons in Hh. destruct Hh as (K1 & K2 & Hq & <- & _).
    assert (Hin : forall x, In x (live m) -> In x L2) by (intros x Hx; rewrite Hq; apply in_or_app; auto).
    exists r, m', b. split; [exact He|]. split; [intros x Hx; rewrite Hp; right; auto|]. split; [rewrite Hp; left; reflexivity|].
    split; [|exact HQ]. intros x Hx Hb.
    assert (Hk : exists n' h', In (Tok b n' h') (live m)).
    { destruct W as [[_ _ W3] _]. destruct x as [b' n' h'|b' o c]; cbn [bid] in Hb; subst b'; [eauto|]. destruct (W3 b o c Hx) as (n' & h' & _ & Hi & _). eauto. }
    destruct Hk as (n' & h' & Hk). destruct W' as [[W1 _ _] _]. apply (Permutation_NoDup (Permutation_map key Hp)) in W1.
    cbn [map key] in W1. inversion W1 as [|? ? Hn _]; subst. apply Hn. change (bid x, @None nat) with (key (Tok (bid x) n' h')). apply in_map. auto.
Qed.

Lemma tr_leak {A} P (f : M A) (Q : A -> Prop) m : tr [] f (fun r => [pure (Q r); LEAK P]) -> mem_wf m ->
  leaves_block (numMPCRounds P * numMPCParties P * seedSizeBytes P + saltSizeBytes P) f m Q.
Proof.
  intros H W. apply tr_leaked; [|exact W]. apply (tr_post _ _ _ _ H). intros r. open_l. apply entl_pure_r; [assumption|].
  unfold LEAK, SEEDS, blkc, leaked. open_l. apply (entl_ex_r _ x7), entl_stars_r. cbn [app]. eapply entl_take; [find1|]. apply entl_rest.
Qed.

(** *** print_signature *)

Lemma ofld_any b o : entl [ofld b o] [any b o; rest_].
Proof. unfold ofld. open_l. conv (at_any b o (Ptr x)). eapply entl_take; [find1|]. apply entl_rest. Qed.

Lemma SIG_leaked P b : entl [SIG P b] [raw b 0 3; leaked (numMPCRounds P * 48)].
Proof.
  unfold SIG. open_l. rename x into bp. conv (at_any b 0 (Ptr (Loc bp 0))). conv (ofld_any b 8). conv (ofld_any b 16).
  conv (raw3' b 0). take. unfold leaked. apply (entl_ex_r _ bp), entl_stars_r. cbn [app]. eapply entl_take; [find1|]. apply entl_rest.
Qed.

Lemma SIG2X_leaked P b : entl [SIG2X P b] [raw b 0 9; leaked (numMPCRounds P * 48)].
Proof.
  unfold SIG2X, SIG2. open_l. rename x into bp. conv (at_any b 64 (Ptr (Loc bp 0))).
  conv (ofld_any b 0). conv (ofld_any b 8). conv (ofld_any b 24). conv (ofld_any b 40). conv (ofld_any b 48). conv (ofld_any b 56).
  conv (raw9' b). take. unfold leaked. apply (entl_ex_r _ bp), entl_stars_r. cbn [app]. eapply entl_take; [find1|]. apply entl_rest.
Qed.

Lemma tr_print1 p P des v : get_param_set p = Some P -> is_picnic3 p = false ->
  tr [] (print_signature_mem p des v) (fun r => pure (r = des) :: if des then [] else [leaked (numMPCRounds P * 48)]).
Proof.
  intros HP H3. unfold print_signature_mem. rewrite HP, H3. cbn [negb].
  step (tr_blk 24 false Undef). subst v0. rename x into b. change (24 / 8) with 3.
  step (tr_allocateSignature P b). cbn [is_null]. destruct des.
  - step (tr_freeSignature P b). step (tr_local_end b 24). done_ret. apply entl_pure_r; [reflexivity|]. close.
  - conv (SIG_leaked P b). step (tr_ret tt (fun _ => [])). step (tr_local_end b 24). done_ret. apply entl_pure_r; [reflexivity|]. close.
Qed.

Lemma tr_print3 p P des v : get_param_set p = Some P -> is_picnic3 p = true ->
  tr [] (print_signature_mem p des v) (fun r => pure (r = parses P v) :: if parses P v then [] else [leaked (numMPCRounds P * 48)]).
Proof.
  intros HP H3. pose proof (get_memP3 p P HP H3) as HM. unfold print_signature_mem. rewrite HP, H3. cbn [negb].
  step (tr_blk 72 false Undef). subst v0. rename x into b. change (72 / 8) with 9.
  step (tr_allocateSignature2 P b). cbn [is_null]. step (tr_deserializeSignature2 P HM v b). subst v1. destruct (parses P v).
  - step (tr_freeSignature2 P b). step (tr_local_end b 72). done_ret. apply entl_pure_r; [reflexivity|]. close.
  - conv (SIG2X_leaked P b). step (tr_ret tt (fun _ => [])). step (tr_local_end b 72). done_ret. apply entl_pure_r; [reflexivity|]. close.
Qed.

Lemma print_mem_pf p P des v m : get_param_set p = Some P -> mem_wf m ->
  (if is_picnic3 p then parses P v else des) = true ->
  leaves_no_block (print_signature_mem p des v) m (fun r => r = true).
Proof.
  intros HP W H. apply tr_no_block; [|exact W]. destruct (is_picnic3 p) eqn:H3.
  - pose proof (tr_print3 p P des v HP H3) as Ht. rewrite H in Ht. exact Ht.
  - pose proof (tr_print1 p P des v HP H3) as Ht. rewrite H in Ht |- *. exact Ht.
Qed.

Lemma print_leak_pf p P des v m : get_param_set p = Some P -> mem_wf m ->
  (if is_picnic3 p then parses P v else des) = false ->
  leaves_block (numMPCRounds P * 48) (print_signature_mem p des v) m (fun r => r = false).
Proof.
  intros HP W H. apply tr_leaked; [|exact W]. destruct (is_picnic3 p) eqn:H3.
  - pose proof (tr_print3 p P des v HP H3) as Ht. rewrite H in Ht. exact Ht.
  - pose proof (tr_print1 p P des v HP H3) as Ht. rewrite H in Ht |- *. exact Ht.
Qed.

(** ** Runs that are undefined *)

Definition cr {A} (pre : list hp) (f : M A) : Prop :=
  forall m F, mem_wf m -> holds (pre ++ [F]) (live m) -> f m = UB.

Lemma cr_pre {A} l l' (f : M A) : entl l l' -> cr l' f -> cr l f.
Proof.
  intros H K m F W Hh. apply (K m F W). apply holds_app in Hh. destruct Hh as (L1 & L2 & Hp & H1 & H2).
  apply holds_app. exists L1, L2. auto.
Qed.
Lemma cr_step {A B} pre P R (f : M A) Q (g : A -> M B) :
  tr P f Q -> Permutation pre (P ++ R) -> (forall v, cr (Q v ++ R) (g v)) -> cr pre (mbind f g).
Proof.
  intros Hf Hp Hg. apply (cr_pre _ (P ++ R)); [apply entl_perm; exact Hp|]. intros m F W H.
  destruct (tr_frame _ _ _ R Hf m F W H) as (v & m1 & E1 & W1 & H1). unfold mbind. rewrite E1. cbn [bind]. exact (Hg v m1 F W1 H1).
Qed.
Lemma cr_first {A B} pre (f : M A) (g : A -> M B) : cr pre f -> cr pre (mbind f g).
Proof. intros H m F W Hh. unfold mbind. rewrite (H m F W Hh). reflexivity. Qed.
Lemma cr_ex {A T} (X : T -> hp) l (f : M A) : (forall x, cr (X x :: l) f) -> cr (ex X :: l) f.
Proof. intros H m F W Hh. cbn [app] in Hh. apply holds_ex in Hh. destruct Hh as [x Hh]. exact (H x m F W Hh). Qed.
Lemma cr_pure {A} (Q : Prop) l (f : M A) : (Q -> cr l f) -> cr (pure Q :: l) f.
Proof. intros H m F W Hh. cbn [app] in Hh. apply holds_pure in Hh. destruct Hh as [HQ Hh]. exact (H HQ m F W Hh). Qed.
Lemma cr_stars {A} l l' (f : M A) : cr (l ++ l') f -> cr (stars l :: l') f.
Proof. intros H. apply (cr_pre _ (l ++ l')); [apply entl_stars_out|exact H]. Qed.
Lemma cr_front {A} x l l' (f : M A) : Permutation l (x :: l') -> cr (x :: l') f -> cr l f.
Proof. intros H. apply cr_pre, entl_perm, H. Qed.
Lemma cr_conv {A} a b l r (f : M A) : entl a b -> Permutation l (a ++ r) -> cr (b ++ r) f -> cr l f.
Proof. intros H Hp K. apply (cr_pre _ (b ++ r)); [|exact K]. apply (entl_conv a b l r); auto. apply entl_refl. Qed.

Ltac copen := repeat lazymatch goal with
  | |- cr (ex _ :: _) _ => apply cr_ex; intro
  | |- cr (pure _ :: _) _ => apply cr_pure; intro
  | |- cr (stars _ :: _) _ => apply cr_stars; cbn [app]
  | |- cr ?l _ => let x := find_open l in eapply (cr_front x); [find1|]
  end.
Tactic Notation "cstep" uconstr(H) := eapply cr_step; [refine H | find_all | intros ?; cbn [app]; copen].
Tactic Notation "cconv" uconstr(H) := eapply cr_conv; [refine H | find_all | cbn [app]; copen].

Lemma cr_load b o l : cr (at_ b o Undef :: l) (load (Loc b o)).
Proof.
  apply (cr_pre _ ([at_ b o Undef] ++ l)); [apply entl_refl|].
  eapply cr_step; [apply tr_load_cell|reflexivity|]. intros v. cbn [app]. copen. subst v. intros m F W H. reflexivity.
Qed.

Lemma cr_verify_picnic3 P v : memP3 P -> v_rs0 v = false -> cr [] (verify_picnic3_mem P v).
Proof.
  intros H3 R0. unfold verify_picnic3_mem. pose proof (m3_P P H3) as HM.
  pose proof (mp_T P HM) as HT. pose proof (mp_d P HM) as Hd.
  cstep (tr_allocateCommitments P 0 Hd). rename v0 into C.
  cstep (tr_local_zero16). subst v0. rename x into Ch. cstep tr_local_zero16. subst v0. rename x into Cv.
  cstep (tr_allocateMsgs P (m3_an P H3)). rename v0 into msgs.
  cstep (tr_createTree (numMPCRounds P) (digestSizeBytes P)). rename v0 into treeCv.
  cstep (tr_blk (numMPCRounds P * 8) true (Ptr Null)). subst v0. rename x into seeds.
  cstep (tr_new (numMPCRounds P * 24) true Undef). subst v0. rename x into tapes.
  cstep (tr_createTree (numMPCRounds P) (seedSizeBytes P)). rename v0 into it.
  assert (HB : tr [] (verify_picnic3_body P v (Loc Ch 0) (Loc Cv 0) treeCv (Loc seeds 0) (Loc tapes 0) it) (fun _ => [])).
  { unfold verify_picnic3_body. rewrite R0. cbn [negb]. step (tr_revealSeeds (numMPCRounds P) (numOpenedRounds P) (m3_lT P H3)).
    done_ret. close. }
  cstep HB. cstep (tr_freeCommitments P _ C HT Hd). cconv (null_ofld Cv 0). cconv (null_ofld Ch 0).
  cstep (tr_freeCommitments2 Cv 0). cstep (tr_freeCommitments2 Ch 0).
  cstep (tr_freeMsgs P msgs HT (m3_an P H3)). cstep (tr_freeTree _ (digestSizeBytes P) treeCv (NT_pos P H3)).
  cstep (tr_freeTree _ (seedSizeBytes P) it (NT_pos P H3)). rewrite T24.
  unfold mdo. destruct (numMPCRounds P) as [|T'] eqn:ET; [lia|]. cbn [mfor]. cbn [Nat.mul plus Nat.add]. unfold mdo; cbn [mfor].
  replace (S T' * 3) with (S (2 + T' * 3)) by lia. cconv (big_S (fun i => at_ tapes (8 * i) Undef) 0 (2 + T' * 3)).
  change (8 * 0) with 0. change (24 * 0) with 0. do 2 apply cr_first. unfold freeRandomTape at 1. apply cr_first.
  apply cr_first. apply cr_load.
Qed.

(** ** Every parsed signature gives its seed trees *)

Lemma follows_ok E P p fuel sg v : get_param_set p = Some P -> is_picnic3 p = true -> env_bytes_ok E -> bytes_ok sg ->
  follows E P fuel sg v ->
  parses P v = true -> v_rs0 v = true /\ forall t, t < numMPCRounds P -> v_open v t = true -> v_rs v t = true.
Proof.
  intros HP Hp3 HE Hsg Hf Hpa. pose proof (get_param_set_wfP3 p P HP Hp3) as H3. unfold follows in Hf.
  destruct (deser_cases P H3 E HE fuel sg Hsg) as [[_ Hd]|[(_ & _ & Hd)|(C & L & _ & _ & _ & [(_ & Hd)|(s & Hr & _ & _ & _ & _ & Hd)])]];
    rewrite Hd in Hf; try contradiction; try congruence.
  assert (Hx : exists pub pt : bytes, 4 * stateSizeWords P <= length pt /\ stateSizeBytes P <= length pub).
  { exists (repeat 0%N (stateSizeBytes P)), (repeat 0%N (4 * stateSizeWords P)). rewrite !repeat_length. lia. }
  destruct Hx as (pub & pt & Hpt & Hpub).
  destruct (all_pads P s); [|congruence]. pose proof (raw_wf P s Hr) as Hw. destruct Hf as [F0 F1]. split.
  - destruct (viseeds_ok E P s pub pt H3 HE Hw Hpt Hpub) as (t0 & Ht0 & Hv & _). rewrite F0, Ht0. cbn [bind]. rewrite Hv. reflexivity.
  - intros t Ht Ho. destruct (F1 t Ht) as [F2 F3]. rewrite Ho in F2. symmetry in F2. rewrite (F3 F2).
    destruct (vseeds_ok E P s pub pt H3 HE Hw Hpt Hpub t Ht) as [Hv _]. unfold verify_seeds in Hv. rewrite F2 in Hv. cbn [negb] in Hv.
    destruct (createTree (numMPCParties P) (seedSizeBytes P)) as [t0| | |]; try discriminate Hv. cbn [bind] in *.
    destruct (unopened_party (g_challengeC s) (g_challengeP s) t) as [u| | |]; try discriminate Hv. cbn [bind] in *.
    destruct (rd_proof (g_proofs s) t) as [q| | |]; try discriminate Hv. cbn [bind] in *.
    destruct (reconstructSeeds E P t0 [u] (q_seedInfo q) (g_salt s) t) as [[x|]| | |]; try discriminate Hv. reflexivity.
Qed.

(** Every signature has a description of its run. *)
Lemma follows_ex E P fuel sg : match deserializeSignature2 E P fuel sg with
  | Ok o => exists v, follows E P fuel sg v /\ parses P v = match o with Some _ => true | None => false end
  | _ => True
  end.
Proof.
  destruct (deserializeSignature2 E P fuel sg) as [[s|]| | |] eqn:Hd; try exact I.
  - exists (mkVflow false true 0 0 0 (contains (g_challengeC s)) (fun _ => false)
      (rebuilt (t0 <- createTree (numMPCRounds P) (seedSizeBytes P);; reconstructSeeds E P t0 (g_challengeC s) (g_iSeedInfo s) (g_salt s) 0))
      (fun t => rebuilt (t0 <- createTree (numMPCParties P) (seedSizeBytes P);;
         u <- unopened_party (g_challengeC s) (g_challengeP s) t;; q <- rd_proof (g_proofs s) t;;
         reconstructSeeds E P t0 [u] (q_seedInfo q) (g_salt s) t)) (fun _ => true) true true true).
    unfold follows, parses. rewrite Hd. cbn [v_short v_len v_rs0 v_open v_rs v_pad]. split.
    + split; [reflexivity|]. intros t _. split; [reflexivity|]. intros _. reflexivity.
    + cbn [negb andb]. apply forallb_forall. intros t _. rewrite andb_false_r. reflexivity.
  - exists (mkVflow true true 0 0 0 (fun _ => false) (fun _ => false) true (fun _ => true) (fun _ => true) true true true).
    unfold follows. rewrite Hd. split; reflexivity.
Qed.

(** ** The statements *)

Lemma verify1_mem_pf p P des v m : get_param_set p = Some P -> is_picnic3 p = false -> mem_wf m ->
  leaves_no_block (picnic_verify_mem p des v) m (fun r => r = des && v_cmp v).
Proof. intros HP H3 W. apply tr_no_block; [|exact W]. apply (tr_picnic_verify1 p P); auto. Qed.

Lemma verify3_mem_pf E p P fuel sg v m : get_param_set p = Some P -> is_picnic3 p = true -> env_bytes_ok E -> bytes_ok sg ->
  follows E P fuel sg v -> mem_wf m ->
  leaves_no_block (picnic_verify_mem p true v) m (fun r => r = parses P v && accepts P v).
Proof.
  intros HP H3 HE Hsg Hf W. apply tr_no_block; [|exact W]. apply (tr_picnic_verify3 p P); auto.
  exact (follows_ok E P p fuel sg v HP H3 HE Hsg Hf).
Qed.

Lemma verify3_ub_pf p P v m : get_param_set p = Some P -> is_picnic3 p = true -> v_rs0 v = false -> mem_wf m ->
  verify_picnic3_mem P v m = UB.
Proof.
  intros HP H3 R0 W. apply (cr_verify_picnic3 P v (get_memP3 p P HP H3) R0 m (eq (live m)) W).
  cbn [app]. apply holds_cons. exists (live m), []. rewrite app_nil_r. split; [reflexivity|]. split; [reflexivity|]. apply holds_nil. reflexivity.
Qed.

Lemma sign_mem_pf p P g m : get_param_set p = Some P -> mem_wf m ->
  is_picnic3 p = true \/ forallb (g_sim g) (seq 0 (numMPCRounds P)) = true ->
  leaves_no_block (picnic_sign_mem p g) m (fun r => r = forallb (g_sim g) (seq 0 (numMPCRounds P)) && g_ser g).
Proof.
  intros HP W H. apply tr_no_block; [|exact W]. destruct (is_picnic3 p) eqn:H3; [apply (tr_picnic_sign3 p P); auto|].
  destruct H as [H|H]; [discriminate H|]. pose proof (tr_picnic_sign1 p P g HP H3) as Ht. rewrite H in Ht |- *. exact Ht.
Qed.

Lemma sign_leak_pf p P g m : get_param_set p = Some P -> mem_wf m ->
  is_picnic3 p = false -> forallb (g_sim g) (seq 0 (numMPCRounds P)) = false ->
  leaves_block (numMPCRounds P * numMPCParties P * seedSizeBytes P + saltSizeBytes P) (picnic_sign_mem p g) m (fun r => r = false).
Proof.
  intros HP W H3 H. apply tr_leak; [|exact W]. pose proof (tr_picnic_sign1 p P g HP H3) as Ht. rewrite H in Ht. exact Ht.
Qed.

(** Concrete cases: the empty memory, and a signature that is accepted. *)
Lemma empty_wf : mem_wf (mkMem [] 0 (fun _ => false)).
Proof. split; [|intros k; reflexivity]. split; [constructor|intros ? []|intros ? ? ? []]. Qed.

Lemma accepted_follows E P p fuel pk msg sg : get_param_set p = Some P -> is_picnic3 p = true -> pk_params pk = p ->
  picnic_verify E fuel pk msg sg = Ok true -> exists v, follows E P fuel sg v /\ parses P v = true.
Proof.
  intros HP H3 Hk Hv. unfold picnic_verify in Hv. rewrite Hk, HP, H3 in Hv. cbn [negb] in Hv.
  pose proof (follows_ex E P fuel sg) as Hf. destruct (deserializeSignature2 E P fuel sg) as [[s|]| | |]; try discriminate Hv. exact Hf.
Qed.
