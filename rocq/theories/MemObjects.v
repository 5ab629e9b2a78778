(** The objects of [picnic_types.c] and the trees of [tree.c]: what each allocating function builds and
    what each releasing function needs. *)

From Coq Require Import List NArith Arith Bool Lia Permutation.
From Verif Require Import Base Params Memory Tree Alloc MemLogic MemRules.
Import ListNotations.

Local Open Scope nat_scope.

Ltac done_ret := eapply tr_pre; [|refine (tr_ret _ _)]; cbv beta.

Lemma mul8 k : k * 8 / 8 = k.
Proof. apply Nat.div_mul. lia. Qed.
Lemma tr_load_ptrs ba oa bs os sz k i : i < k ->
  tr [ptrs ba oa bs os sz k] (load (Loc ba (oa + 8 * i))) (fun q => [pure (q = Loc bs (os + i * sz)); ptrs ba oa bs os sz k]).
Proof.
  intros Hi. apply (tr_load_big ba (fun i => oa + 8 * i) (fun i => Loc bs (os + i * sz))
    (fun i => at_ ba (oa + 8 * i) (Ptr (Loc bs (os + i * sz)))) (fun _ => emp) k i Hi).
  - apply (entl_trans _ [emp; at_ ba (oa + 8 * i) (Ptr (Loc bs (os + i * sz)))]); [apply emp_in|apply entl_perm, perm_swap].
  - apply (entl_trans _ [emp; at_ ba (oa + 8 * i) (Ptr (Loc bs (os + i * sz)))]); [apply entl_perm, perm_swap|apply emp_out].
Qed.
Lemma tr_load_ptrs0 ba bs os sz k : 0 < k ->
  tr [ptrs ba 0 bs os sz k] (load (Loc ba 0)) (fun q => [pure (q = Loc bs os); ptrs ba 0 bs os sz k]).
Proof.
  intros Hk. pose proof (tr_load_ptrs ba 0 bs os sz k 0 Hk) as H. cbn [Nat.mul Nat.add] in H. rewrite Nat.add_0_r in H. exact H.
Qed.
Lemma tr_fill_arr b bs os sz k :
  tr [raw b 0 k] (mfor k 0 (fun i slab => store (Loc b 0 +p 8 * i) slab;;; ret (slab +p sz)) (Loc bs os))
     (fun r => [pure (r = Loc bs (os + k * sz)); ptrs b 0 bs os sz k]).
Proof.
  pose proof (tr_mfor (fun i slab => store (Loc b 0 +p 8 * i) slab;;; ret (slab +p sz))
    (fun j => any b (0 + 8 * j)) (fun i => at_ b (0 + 8 * i) (Ptr (Loc bs (os + i * sz))))
    (fun i => Loc bs (os + i * sz)) [] k 0) as H.
  cbn [Nat.mul Nat.add] in H. rewrite Nat.add_0_r in H. apply H. clear H. intros i _. cbn [plus Nat.add].
  step (tr_store_any b (8 * i) (Loc bs (os + i * sz))).
  done_ret. apply entl_pure_r; [f_equal; lia|]. close.
Qed.
Lemma null_ofld b o : entl [at_ b o (Ptr Null)] [ofld b o].
Proof. apply (entl_ex_r _ Null). apply entl_stars_r. cbn [app opt]. close. apply emp_in. Qed.

(** ** Shares *)

Definition SHARES (p : ptr) : hp := ex (fun b => stars [pure (p = Loc b 0); tok b 16 true; ofld b 0; any b 8]).

Lemma tr_allocateShares c : tr [] (allocateShares c) (fun p => [SHARES p]).
Proof.
  unfold allocateShares. step (tr_blk 16 true Undef). subst v.
  change (16 / 8) with 2. conv (raw2 x 0). cbn [Nat.add].
  eapply tr_set; [apply tr_calloc_opt|find1|].
  done_ret. apply (entl_ex_r _ x). apply entl_stars_r. cbn [app]. apply entl_pure_r; [reflexivity|]. take.
Qed.
Lemma tr_freeShares p : tr [SHARES p] (freeShares p) (fun _ => []).
Proof.
  unfold freeShares, SHARES. open_head. subst p. eapply tr_clear; [find1|]. conv (raw2' x 0).
  last (tr_free_blk' x 16 2 eq_refl). close.
Qed.

Section P.
Variable P : paramset.
Let T := numMPCRounds P.
Let n := numMPCParties P.

(** ** Views *)

Definition VIEW (b o : nat) : hp := stars [ofld b o; ofld b (o + 8); ofld b (o + 16)].
Lemma tr_allocateView b o : tr [raw b o 3] (allocateView P (Loc b o)) (fun _ => [VIEW b o]).
Proof.
  unfold allocateView. conv (raw3 b o). cbn [plus].
  eapply tr_set; [apply tr_calloc_opt|find1|]. eapply tr_set; [apply tr_calloc_opt|find1|].
  eapply tr_set_last; [apply tr_calloc_opt|find1|]. apply entl_stars_r. cbn [app]. take.
Qed.
Lemma tr_freeView b o : tr [VIEW b o] (freeView (Loc b o)) (fun _ => [raw b o 3]).
Proof.
  unfold freeView, VIEW. open_head. cbn [plus].
  eapply tr_clear; [find1|]. eapply tr_clear; [find1|]. eapply tr_clear_last; [find1|].
  conv (raw3' b o). take.
Qed.

(** ** Random tapes *)

Let tz := getTapeSizeBytes P.
Definition TAPES (ba bs : nat) : hp :=
  stars [tok ba (n * 8) true; ptrs ba 0 bs 0 tz n; blkc bs (n * tz)].
Definition TAPE (b o : nat) : hp := ex (fun ba => ex (fun bs => stars [at_ b o (Ptr (Loc ba 0)); TAPES ba bs])).


Lemma tr_allocateRandomTape b o : tr [any b o] (allocateRandomTape P (Loc b o)) (fun _ => [TAPE b o]).
Proof.
  unfold allocateRandomTape. fold n tz. step (tr_blk (n * 8) true Undef). subst v. rename x into ba. rewrite mul8.
  step (tr_store_any b o (Loc ba 0)).
  step (tr_blk (1 * (n * tz)) true (Ptr Null)). subst v0. rename x into bs.
  step (tr_fill b o ba 0 bs 0 tz n).
  done_ret. apply (entl_ex_r _ ba), (entl_ex_r _ bs), entl_stars_r. cbn [app]. take. apply entl_stars_r. cbn [app]. take.
  apply entl_stars_r. cbn [app]. rewrite Nat.mul_1_l. take.
Qed.


Lemma tr_freeRandomTape b o : 0 < n -> tr [TAPE b o] (freeRandomTape (Loc b o)) (fun _ => [any b o]).
Proof.
  intros Hn. unfold freeRandomTape, TAPE, TAPES, blkc. open_head. rename x into ba, x0 into bs.
  step (tr_load b o (Loc ba 0)). subst v.
  step (tr_load_ptrs0 ba bs 0 tz n Hn). subst v.
  step (tr_free_blk bs (n * tz)).
  step (tr_load b o (Loc ba 0)). subst v0.
  conv (ptrs_raw ba 0 bs 0 tz n). last (tr_free_blk' ba (n * 8) n (mul8 n)).
  conv (at_any b o (Ptr (Loc ba 0))). close.
Qed.

(** ** Commitments *)

Let dg := digestSizeBytes P.
(** The size in words of a row of [k] commitments with their pointers. *)
Definition cw (k : nat) : nat := k * (dg / 8) + k.
Definition COMMITS (k : nat) (p : ptr) : hp := ex (fun b => ex (fun bs => stars [pure (p = Loc b 0);
  tok b (T * 16) true; tab_s b bs 2 (cw k) T; tok bs (T * (k * dg + k * 8)) true; tab_p bs dg k (cw k) T])).

Lemma cw_eq k : dg = 8 * (dg / 8) -> k * 8 + k * dg = 8 * cw k.
Proof. intros H. unfold cw. rewrite H at 1. lia. Qed.
Lemma cw_div k : dg = 8 * (dg / 8) -> T * (k * dg + k * 8) / 8 = T * cw k.
Proof. intros H. replace (T * (k * dg + k * 8)) with (T * cw k * 8) by (pose proof (cw_eq k H); nia). apply mul8. Qed.

Lemma tr_allocateCommitments k0 : dg = 8 * (dg / 8) ->
  tr [] (allocateCommitments P k0) (fun p => [COMMITS (if k0 =? 0 then n else k0) p]).
Proof.
  intros Hd. unfold allocateCommitments. fold T n dg. set (k := if k0 =? 0 then n else k0).
  step (tr_blk (T * 16) true Undef). subst v. rename x into b.
  step (tr_blk (T * (k * dg + k * 8)) true Undef). subst v. rename x into bs.
  replace (T * 16 / 8) with (T * 2) by (replace (T * 16) with (T * 2 * 8) by lia; rewrite mul8; lia).
  rewrite (cw_div k Hd).
  step (tr_table b bs 2 dg k (cw k) T 16 eq_refl ltac:(lia) (cw_eq k Hd)).
  done_ret. apply (entl_ex_r _ b), (entl_ex_r _ bs), entl_stars_r. cbn [app]. apply entl_pure_r; [reflexivity|]. close.
Qed.

Lemma tr_freeCommitments k p : 0 < T -> dg = 8 * (dg / 8) -> tr [COMMITS k p] (freeCommitments p) (fun _ => []).
Proof.
  intros HT Hd. unfold freeCommitments, COMMITS. open_head. subst p. rename x into b, x0 into bs.
  pose proof (tr_load_tab b bs 2 (cw k) T 0 HT) as H. rewrite !Nat.mul_0_r in H. step H. subst v.
  conv (tab_p_raw bs dg k (cw k) T ltac:(unfold cw; lia)).
  step (tr_free_blk' bs _ _ (cw_div k Hd)).
  conv (tab_s_raw b bs 2 (cw k) T ltac:(lia)).
  last (tr_free_blk' b (T * 16) (T * 2) _). 2: close.
  replace (T * 16) with (T * 2 * 8) by lia. apply mul8.
Qed.

(** [commitments_t] variables filled by [allocateCommitments2]. *)
Definition COMMIT2 (k b o : nat) : hp := ex (fun bs => stars [at_ b o (Ptr (Loc bs 0));
  tok bs (k * dg + k * 8) true; ptrs bs 0 bs (k * 8) dg k; raw bs (8 * k) ((k * dg + k * 8) / 8 - k)]).

Lemma cw2_div k : dg = 8 * (dg / 8) -> (k * dg + k * 8) / 8 = k + ((k * dg + k * 8) / 8 - k).
Proof.
  intros H. replace (k * dg + k * 8) with (cw k * 8) by (pose proof (cw_eq k H); nia). rewrite mul8. unfold cw. lia.
Qed.

Lemma tr_allocateCommitments2 k b o : dg = 8 * (dg / 8) ->
  tr [any b o] (allocateCommitments2 P (Loc b o) k) (fun _ => [COMMIT2 k b o]).
Proof.
  intros Hd. unfold allocateCommitments2. fold dg.
  step (tr_blk (k * dg + k * 8) true Undef). subst v. rename x into bs.
  step (tr_store_any b o (Loc bs 0)).
  rewrite (cw2_div k Hd). conv (raw_add bs 0 k ((k * dg + k * 8) / 8 - k)). cbn [Nat.add plus].
  step (tr_fill b o bs 0 bs (k * 8) dg k).
  done_ret. apply (entl_ex_r _ bs). close.
Qed.

(** After [hashes[t] = NULL] for some of the rounds. *)
Definition CFREE (b o : nat) : hp := ofld b o.
Lemma COMMIT2_free k b o : dg = 8 * (dg / 8) -> entl [COMMIT2 k b o] [ofld b o].
Proof.
  intros Hd. unfold COMMIT2. open_l. rename x into bs. apply (entl_ex_r _ (Loc bs 0)). apply entl_stars_r. cbn [app opt]. close.
  apply (entl_ex_r _ (k * dg + k * 8)). unfold blkc. close.
  conv (ptrs_raw bs 0 bs (k * 8) dg k). conv (raw_add' bs 0 k ((k * dg + k * 8) / 8 - k)). rewrite <- (cw2_div k Hd). close.
Qed.
Lemma tr_freeCommitments2 b o : tr [ofld b o] (freeCommitments2 (Loc b o)) (fun _ => [any b o]).
Proof.
  unfold freeCommitments2, ofld. open_head. step (tr_load b o x). subst v.
  replace (match x with Null => ret tt | Loc _ _ => free x end) with (free x) by (destruct x; reflexivity).
  last (tr_free_opt x). conv (at_any b o (Ptr x)). close.
Qed.

(** ** Messages *)

Let an := andSizeBytes P.
Definition mw : nat := n * an / 8 + n.
Definition MSGS (p : ptr) : hp := ex (fun b => ex (fun bs => stars [pure (p = Loc b 0);
  tok b (T * 24) true; tab_s b bs 3 mw T; tok bs (T * (n * an + n * 8)) true; tab_p bs an n mw T])).
Lemma mw_eq : n * an = 8 * (n * an / 8) -> n * 8 + n * an = 8 * mw.
Proof. intros H. unfold mw. rewrite H at 1. lia. Qed.
Lemma mw_div : n * an = 8 * (n * an / 8) -> T * (n * an + n * 8) / 8 = T * mw.
Proof. intros H. replace (T * (n * an + n * 8)) with (T * mw * 8) by (pose proof (mw_eq H); nia). apply mul8. Qed.
Lemma T24 : T * 24 / 8 = T * 3.
Proof. replace (T * 24) with (T * 3 * 8) by lia. apply mul8. Qed.

Lemma tr_allocateMsgs : n * an = 8 * (n * an / 8) -> tr [] (allocateMsgs P) (fun p => [MSGS p]).
Proof.
  intros Hd. unfold allocateMsgs. fold T n an.
  step (tr_blk (T * 24) true Undef). subst v. rename x into b.
  step (tr_blk (1 * (T * (n * an + n * 8))) true (Ptr Null)). subst v. rename x into bs.
  rewrite Nat.mul_1_l, T24, (mw_div Hd).
  step (tr_table b bs 3 an n mw T 24 eq_refl ltac:(lia) (mw_eq Hd)).
  done_ret. apply (entl_ex_r _ b), (entl_ex_r _ bs), entl_stars_r. cbn [app]. apply entl_pure_r; [reflexivity|]. close.
Qed.
Lemma tr_freeMsgs p : 0 < T -> n * an = 8 * (n * an / 8) -> tr [MSGS p] (freeMsgs p) (fun _ => []).
Proof.
  intros HT Hd. unfold freeMsgs, MSGS. open_head. subst p. rename x into b, x0 into bs.
  pose proof (tr_load_tab b bs 3 mw T 0 HT) as H. rewrite !Nat.mul_0_r in H. step H. subst v.
  conv (tab_p_raw bs an n mw T ltac:(unfold mw; lia)).
  step (tr_free_blk' bs _ _ (mw_div Hd)).
  conv (tab_s_raw b bs 3 mw T ltac:(lia)).
  last (tr_free_blk' b (T * 24) (T * 3) T24). close.
Qed.

(** ** Inputs *)

Let sw := stateSizeWords P.
Definition INPUTS (p : ptr) : hp := ex (fun b => stars [pure (p = Loc b 0);
  tok b (T * (sw * 4 + 8)) true; ptrs b 0 b (T * 8) (sw * 4) T; raw b (8 * T) (T * (sw * 4 + 8) / 8 - T)]).
Lemma in_div : T * (sw * 4 + 8) / 8 = T + (T * (sw * 4 + 8) / 8 - T).
Proof.
  assert (T <= T * (sw * 4 + 8) / 8); [|lia]. apply Nat.div_le_lower_bound; nia.
Qed.
Lemma tr_allocateInputs : tr [] (allocateInputs P) (fun p => [INPUTS p]).
Proof.
  unfold allocateInputs. fold T sw. step (tr_blk (1 * (T * (sw * 4 + 8))) true (Ptr Null)). subst v. rename x into b.
  rewrite Nat.mul_1_l, in_div. conv (raw_add b 0 T (T * (sw * 4 + 8) / 8 - T)). cbn [plus Nat.add].
  step (tr_fill_arr b b (T * 8) (sw * 4) T).
  done_ret. apply (entl_ex_r _ b), entl_stars_r. cbn [app]. apply entl_pure_r; [reflexivity|]. close.
Qed.
Lemma tr_freeInputs p : tr [INPUTS p] (freeInputs p) (fun _ => []).
Proof.
  unfold freeInputs, INPUTS. open_head. subst p. rename x into b. conv (ptrs_raw b 0 b (T * 8) (sw * 4) T).
  conv (raw_add' b 0 T (T * (sw * 4 + 8) / 8 - T)). rewrite <- in_div. last (tr_free_blk b (T * (sw * 4 + 8))). close.
Qed.

(** ** ZKB++ proofs and signatures *)

Definition PROOF (b o : nat) : hp :=
  stars [ofld b o; ofld b (o + 8); ofld b (o + 16); ofld b (o + 24); ofld b (o + 32); ofld b (o + 40)].
Lemma tr_allocateProof b o : tr [raw b o 6] (allocateProof P (Loc b o)) (fun _ => [PROOF b o]).
Proof.
  unfold allocateProof. conv (raw6 b o). cbn [plus].
  do 5 (eapply tr_set; [apply tr_malloc_opt|find1|]).
  destruct (0 <? UnruhGWithInputBytes P).
  - eapply tr_set_last; [apply tr_malloc_opt|find1|]. unfold PROOF. close.
  - last (tr_store_any b (o + 40) Null). conv (null_ofld b (o + 40)). unfold PROOF. close.
Qed.
Lemma tr_freeProof b o : tr [PROOF b o] (freeProof (Loc b o)) (fun _ => [raw b o 6]).
Proof.
  unfold freeProof, PROOF. open_head. cbn [plus].
  do 5 (eapply tr_clear; [find1|]). eapply tr_clear_last; [find1|]. conv (raw6' b o). close.
Qed.

Definition SIG (b : nat) : hp := ex (fun bp => stars [at_ b 0 (Ptr (Loc bp 0)); tok bp (T * 48) true;
  big (fun t => PROOF bp (48 * t)) 0 T; ofld b 8; ofld b 16]).
Lemma T48 : T * 48 / 8 = T * 6.
Proof. replace (T * 48) with (T * 6 * 8) by lia. apply mul8. Qed.

Lemma tr_mdo1 (body : nat -> M unit) (X Y : nat -> hp) k :
  (forall i, i < k -> tr [X i] (body i) (fun _ => [Y i])) -> tr [big X 0 k] (mdo k body) (fun _ => [big Y 0 k]).
Proof. intros H. apply (tr_mdo body X Y [] k). exact H. Qed.

Lemma tr_allocateSignature b : tr [raw b 0 3] (allocateSignature P (Loc b 0)) (fun _ => [SIG b]).
Proof.
  unfold allocateSignature. fold T. conv (raw3 b 0). cbn [Nat.add plus].
  step (tr_blk (T * 48) true Undef). subst v. rename x into bp. rewrite T48.
  step (tr_store_any b 0 (Loc bp 0)). conv (raw_rows bp T 6).
  step (tr_mdo (fun i => p <~ load (Loc b 0);; allocateProof P (p +p 48 * i)) (fun t => raw bp (8 * 6 * t) 6) (fun t => PROOF bp (48 * t))
    [at_ b 0 (Ptr (Loc bp 0))] T _).
  { intros t _. step (tr_load b 0 (Loc bp 0)). subst v0. cbn [plus Nat.add]. last (tr_allocateProof bp (48 * t)). close. }
  eapply tr_set; [apply tr_malloc_opt|find1|]. eapply tr_set_last; [apply tr_malloc_opt|find1|].
  apply (entl_ex_r _ bp). close.
Qed.
Lemma tr_freeSignature b : tr [SIG b] (freeSignature P (Loc b 0)) (fun _ => [raw b 0 3]).
Proof.
  unfold freeSignature, SIG. fold T. open_head. rename x into bp.
  step (tr_mdo (fun i => p <~ load (Loc b 0);; freeProof (p +p 48 * i)) (fun t => PROOF bp (48 * t)) (fun t => raw bp (8 * 6 * t) 6)
    [at_ b 0 (Ptr (Loc bp 0))] T _).
  { intros t _. step (tr_load b 0 (Loc bp 0)). subst v. cbn [plus Nat.add]. last (tr_freeProof bp (48 * t)). close. }
  step (tr_load b 0 (Loc bp 0)). subst v0. conv (raw_rows' bp T 6 (fun t => raw bp (8 * 6 * t) 6) ltac:(intros; apply entl_refl)).
  step (tr_free_blk' bp _ _ T48). cbn [plus Nat.add].
  eapply tr_clear; [find1|]. eapply tr_clear_last; [find1|]. conv (at_any b 0 (Ptr (Loc bp 0))). conv (raw3' b 0). close.
Qed.

(** ** Picnic3 proofs and signatures *)

Definition NULLS (b o k : nat) : hp := big (fun j => at_ b (o + 8 * j) (Ptr Null)) 0 k.
Lemma nulls6 b o : entl [NULLS b o 6] [at_ b o (Ptr Null); at_ b (o + 8) (Ptr Null); at_ b (o + 16) (Ptr Null);
  at_ b (o + 24) (Ptr Null); at_ b (o + 32) (Ptr Null); at_ b (o + 40) (Ptr Null)].
Proof. unfold NULLS, big. cbn [seq map]. apply entl_stars_l. cbn [app]. rewrite Nat.mul_0_r, Nat.add_0_r. close. Qed.
Lemma nulls_raw b o k : entl [NULLS b o k] [raw b o k].
Proof. apply big_mono. intros. apply at_any. Qed.

Definition PROOF2 (b o : nat) : hp :=
  stars [ofld b o; any b (o + 8); ofld b (o + 16); ofld b (o + 24); ofld b (o + 32); ofld b (o + 40)].
(** After [allocateProof2]: no seeds yet. *)
Definition PROOF2N (b o : nat) : hp :=
  stars [any b o; any b (o + 8); ofld b (o + 16); ofld b (o + 24); ofld b (o + 32); ofld b (o + 40)].
Lemma tr_allocateProof2 b o : tr [raw b o 6] (allocateProof2 P (Loc b o)) (fun _ => [PROOF2N b o]).
Proof.
  unfold allocateProof2.
  step (tr_mdo1 (fun i => store (Loc b o +p 8 * i) Null) (fun j => any b (o + 8 * j)) (fun j => at_ b (o + 8 * j) (Ptr Null)) 6 _).
  { intros i _. cbn [plus]. apply tr_store_any. }
  change (big (fun j => at_ b (o + 8 * j) (Ptr Null)) 0 6) with (NULLS b o 6).
  conv (nulls_raw b o 6). conv (raw6 b o). cbn [plus].
  step (tr_store_any b o Null). conv (at_any b o (Ptr Null)).
  eapply tr_set; [apply tr_malloc_opt|find1|]. do 2 (eapply tr_set; [apply tr_calloc_opt|find1|]).
  eapply tr_set_last; [apply tr_calloc_opt|find1|]. unfold PROOF2N. close.
Qed.
Lemma tr_freeProof2 b o : tr [PROOF2 b o] (freeProof2 (Loc b o)) (fun _ => [raw b o 6]).
Proof.
  unfold freeProof2, PROOF2. open_head. cbn [plus].
  do 4 (eapply tr_clear; [find1|]). eapply tr_clear_last; [find1|]. conv (raw6' b o). close.
Qed.
Lemma nulls_proof2 b o : entl [NULLS b o 6] [PROOF2 b o].
Proof.
  conv (nulls6 b o). conv (null_ofld b o). conv (at_any b (o + 8) (Ptr Null)). conv (null_ofld b (o + 16)).
  conv (null_ofld b (o + 24)). conv (null_ofld b (o + 32)). conv (null_ofld b (o + 40)). unfold PROOF2. close.
Qed.

(** A signature: the fields but the two lists and the proofs, which have some other state. *)
Definition SIG2 (A B : hp) (Q : nat -> nat -> hp) (b : nat) : hp := ex (fun bp => stars [ofld b 0; A; any b 16; B; any b 32; ofld b 40;
  ofld b 48; ofld b 56; at_ b 64 (Ptr (Loc bp 0)); tok bp (T * 48) true; big (fun t => Q bp t) 0 T]).
Definition SIG2F (b : nat) : hp := SIG2 (any b 8) (any b 24) (fun bp t => NULLS bp (48 * t) 6) b.
Definition SIG2X (b : nat) : hp := SIG2 (ofld b 8) (ofld b 24) (fun bp t => PROOF2 bp (48 * t)) b.
(** As left by [allocateSignature2]. *)
Definition SIG2N (b : nat) : hp :=
  SIG2 (at_ b 8 (Ptr Null)) (at_ b 24 (Ptr Null)) (fun bp t => NULLS bp (48 * t) 6) b.

Lemma SIG2N_F b : entl [SIG2N b] [SIG2F b].
Proof.
  unfold SIG2N, SIG2F, SIG2. open_l. rename x into bp. apply (entl_ex_r _ bp). conv (at_any b 8 (Ptr Null)). conv (at_any b 24 (Ptr Null)). close.
Qed.
Lemma SIG2N_X b : entl [SIG2N b] [SIG2X b].
Proof.
  unfold SIG2N, SIG2X, SIG2. open_l. rename x into bp. apply (entl_ex_r _ bp). conv (null_ofld b 8). conv (null_ofld b 24).
  conv (big_mono (fun t => NULLS bp (48 * t) 6) (fun t => PROOF2 bp (48 * t)) 0 T (fun t _ => nulls_proof2 bp (48 * t))). close.
Qed.

Lemma raw9 b : entl [raw b 0 9] [any b 0; any b 8; any b 16; any b 24; any b 32; any b 40; any b 48; any b 56; any b 64].
Proof. unfold raw, big. cbn [seq map]. apply entl_stars_l. cbn [app Nat.mul Nat.add]. close. Qed.
Lemma raw9' b : entl [any b 0; any b 8; any b 16; any b 24; any b 32; any b 40; any b 48; any b 56; any b 64] [raw b 0 9].
Proof. unfold raw, big. cbn [seq map]. apply entl_stars_r. cbn [app Nat.mul Nat.add]. close. Qed.

Lemma at_rows b k R c : entl [big (fun i => at_ b (8 * i) c) 0 (R * k)] [big (fun t => big (fun j => at_ b (8 * k * t + 8 * j) c) 0 k) 0 R].
Proof.
  conv (big_rows (fun j => at_ b (8 * j) c) R k).
  rewrite (big_ext (fun t => big (fun j => at_ b (8 * (t * k + j)) c) 0 k) (fun t => big (fun j => at_ b (8 * k * t + 8 * j) c) 0 k)); [close|].
  intros t. apply big_ext. intros j. f_equal. lia.
Qed.

Lemma tr_allocateSignature2 b : tr [raw b 0 9] (allocateSignature2 P (Loc b 0)) (fun _ => [SIG2N b]).
Proof.
  unfold allocateSignature2. fold T. conv (raw9 b). cbn [Nat.add plus].
  eapply tr_set; [apply tr_malloc_opt|find1|].
  step (tr_store_any b 8 Null). step (tr_store_any b 24 Null).
  do 3 (eapply tr_set; [apply tr_malloc_opt|find1|]).
  step (tr_new (T * 48) true (Ptr Null)). subst v1. rename x into bp. rewrite T48.
  last (tr_store_any b 64 (Loc bp 0)). conv (at_rows bp 6 T (Ptr Null)). apply (entl_ex_r _ bp). unfold NULLS. close.
Qed.
Lemma tr_freeSignature2 b : tr [SIG2X b] (freeSignature2 P (Loc b 0)) (fun _ => [raw b 0 9]).
Proof.
  unfold freeSignature2, SIG2X, SIG2. fold T. open_head. rename x into bp. cbn [plus Nat.add].
  do 6 (eapply tr_clear; [find1|]).
  step (tr_mdo (fun i => p <~ load (Loc b 64);; freeProof2 (p +p 48 * i)) (fun t => PROOF2 bp (48 * t)) (fun t => raw bp (8 * 6 * t) 6)
    [at_ b 64 (Ptr (Loc bp 0))] T _).
  { intros t _. step (tr_load b 64 (Loc bp 0)). subst v. cbn [plus Nat.add]. last (tr_freeProof2 bp (48 * t)). close. }
  step (tr_load b 64 (Loc bp 0)). subst v0. conv (raw_rows' bp T 6 (fun t => raw bp (8 * 6 * t) 6) ltac:(intros; apply entl_refl)).
  last (tr_free_blk' bp _ _ T48). conv (at_any b 64 (Ptr (Loc bp 0))). conv (raw9' b). close.
Qed.

(** ** Views of all rounds *)

Definition VROW (b i : nat) : hp := ex (fun v => stars [at_ b (8 * i) (Ptr (Loc v 0)); tok v 72 true; big (fun j => VIEW v (24 * j)) 0 3]).
Definition VIEWS (p : ptr) : hp := ex (fun b => stars [pure (p = Loc b 0); tok b (T * 8) true; big (VROW b) 0 T]).
Lemma tr_allocateViews : tr [] (allocateViews P) (fun p => [VIEWS p]).
Proof.
  unfold allocateViews. fold T. step (tr_blk (T * 8) true Undef). subst v. rename x into b. rewrite mul8.
  step (tr_mdo1 (fun i => v <~ calloc 3 24;; store (Loc b 0 +p 8 * i) v;;;
    mdo 3 (fun j => v <~ load (Loc b 0 +p 8 * i);; allocateView P (v +p 24 * j))) (fun i => any b (0 + 8 * i)) (VROW b) T _).
  { intros i _. cbn [plus Nat.add]. step (tr_blk 72 true (Ptr Null)). subst v. rename x into v. change (72 / 8) with (3 * 3).
    step (tr_store_any b (8 * i) (Loc v 0)). conv (raw_rows v 3 3).
    last (tr_mdo (fun j => v <~ load (Loc b (8 * i));; allocateView P (v +p 24 * j)) (fun t => raw v (8 * 3 * t) 3) (fun t => VIEW v (24 * t))
      [at_ b (8 * i) (Ptr (Loc v 0))] 3 _).
    { intros j _. step (tr_load b (8 * i) (Loc v 0)). subst v1. cbn [plus Nat.add]. last (tr_allocateView v (24 * j)). close. }
    apply (entl_ex_r _ v). close. }
  done_ret. apply (entl_ex_r _ b), entl_stars_r. cbn [app]. apply entl_pure_r; [reflexivity|]. close.
Qed.
Lemma tr_freeViews p : tr [VIEWS p] (freeViews P p) (fun _ => []).
Proof.
  unfold freeViews, VIEWS. fold T. open_head. subst p. rename x into b.
  step (tr_mdo1 (fun i => mdo 3 (fun j => v <~ load (Loc b 0 +p 8 * i);; freeView (v +p 24 * j));;;
    v <~ load (Loc b 0 +p 8 * i);; free v) (VROW b) (fun i => any b (0 + 8 * i)) T _).
  { intros i _. cbn [plus Nat.add]. unfold VROW. open_head. rename x into v.
    step (tr_mdo (fun j => v <~ load (Loc b (8 * i));; freeView (v +p 24 * j)) (fun t => VIEW v (24 * t)) (fun t => raw v (8 * 3 * t) 3)
      [at_ b (8 * i) (Ptr (Loc v 0))] 3 _).
    { intros j _. step (tr_load b (8 * i) (Loc v 0)). subst v0. cbn [plus Nat.add]. last (tr_freeView v (24 * j)). close. }
    step (tr_load b (8 * i) (Loc v 0)). subst v1. conv (raw_rows' v 3 3 (fun t => raw v (8 * 3 * t) 3) ltac:(intros; apply entl_refl)).
    last (tr_free_blk' v 72 (3 * 3) eq_refl). conv (at_any b (8 * i) (Ptr (Loc v 0))). close. }
  change (big (fun i => any b (0 + 8 * i)) 0 T) with (raw b 0 T).
  last (tr_free_blk' b _ _ (mul8 T)). close.
Qed.

(** ** G commitments *)

Let ug := UnruhGWithInputBytes P.
Definition GROWS (b bs : nat) : hp := big (fun i => ptrs b (24 * i) bs (3 * i * ug) ug 3) 0 T.
Definition GCOMS (p : ptr) : hp :=
  match transf P with
  | TRANSFORM_UR => ex (fun b => ex (fun bs => stars [pure (p = Loc b 0); tok b (T * 24) true; GROWS b bs; blkc bs (ug * T * 3)]))
  | _ => pure (p = Null)
  end.
Lemma tr_grows b bs : tr [raw b 0 (T * 3)]
  (mfor T 0 (fun i slab => mfor 3 0 (fun j slab => store (Loc b 0 +p (24 * i + 8 * j)) slab;;; ret (slab +p ug)) slab) (Loc bs 0))
  (fun _ => [GROWS b bs]).
Proof.
  conv (raw_rows b T 3). eapply tr_post.
  - pose proof (tr_mfor (fun i slab => mfor 3 0 (fun j slab => store (Loc b 0 +p (24 * i + 8 * j)) slab;;; ret (slab +p ug)) slab)
      (fun t => raw b (8 * 3 * t) 3) (fun i => ptrs b (24 * i) bs (3 * i * ug) ug 3) (fun i => Loc bs (3 * i * ug)) [] T 0) as H.
    cbv beta in H. rewrite Nat.mul_0_r, Nat.mul_0_l in H. apply H. clear H. intros i _.
    pose proof (tr_mfor (fun j slab => store (Loc b 0 +p (24 * i + 8 * j)) slab;;; ret (slab +p ug))
      (fun j => any b (24 * i + 8 * j)) (fun j => at_ b (24 * i + 8 * j) (Ptr (Loc bs (3 * i * ug + j * ug))))
      (fun j => Loc bs (3 * i * ug + j * ug)) [] 3 0) as H.
    cbv beta in H. rewrite Nat.mul_0_l, Nat.add_0_r in H. eapply tr_post; [apply H; clear H|].
    + intros j _. cbn [plus Nat.add]. step (tr_store_any b (24 * i + 8 * j) (Loc bs (3 * i * ug + j * ug))).
      done_ret. apply entl_pure_r; [f_equal; lia|]. close.
    + intros v. cbn [app]. open_l. apply entl_pure_r; [subst v; f_equal; lia|]. close.
  - intros v. cbn [app]. open_l. close.
Qed.
Lemma tr_allocateGCommitments : tr [] (allocateGCommitments P) (fun p => [GCOMS p]).
Proof.
  unfold allocateGCommitments, GCOMS. destruct (transf P); try (done_ret; apply entl_pure_in; reflexivity).
  fold T ug. step (tr_blk (T * 24) true Undef). subst v. rename x into b. rewrite T24.
  step (tr_blk (ug * T * 3) true Undef). subst v. rename x into bs.
  step (tr_grows b bs). done_ret. apply (entl_ex_r _ b), (entl_ex_r _ bs), entl_stars_r. cbn [app]. apply entl_pure_r; [reflexivity|].
  unfold blkc. close.
Qed.
Lemma tr_freeGCommitments p : 0 < T -> tr [GCOMS p] (freeGCommitments p) (fun _ => []).
Proof.
  intros HT. unfold GCOMS. destruct (transf P);
    try (open_head; subst p; cbn [freeGCommitments]; exact (tr_ret tt (fun _ => []))).
  open_head. subst p. rename x into b, x0 into bs. cbn [freeGCommitments].
  pose proof (tr_load_big b (fun i => 24 * i) (fun i => Loc bs (3 * i * ug)) (fun i => ptrs b (24 * i) bs (3 * i * ug) ug 3)
    (fun i => big (fun j => at_ b (24 * i + 8 * j) (Ptr (Loc bs (3 * i * ug + j * ug)))) 1 2) T 0 HT) as H.
  cbv beta in H. rewrite !Nat.mul_0_r in H. cbn [Nat.mul] in H. unfold GROWS, blkc. open_head. step (H _ _).
  - unfold ptrs. conv (big_S (fun i => at_ b (0 + 8 * i) (Ptr (Loc bs (0 + i * ug)))) 0 2). close.
  - unfold ptrs. conv (big_S' (fun i => at_ b (0 + 8 * i) (Ptr (Loc bs (0 + i * ug)))) 0 2). close.
  - subst v. step (tr_free_blk bs (ug * T * 3)).
    conv (raw_rows' b T 3 (fun i => ptrs b (24 * i) bs (3 * i * ug) ug 3) (fun t _ => ptrs_raw b (24 * t) bs _ ug 3)).
    last (tr_free_blk' b _ _ T24). close.
Qed.

(** ** Seeds *)

Let sz := seedSizeBytes P.
Let salt := saltSizeBytes P.
Definition SROW (b b1 b2 b3 t : nat) : hp := stars [at_ b (16 * t) (Ptr (Loc b2 (t * (n * 8)))); at_ b (16 * t + 8) (Ptr (Loc b3 (t * sz)));
  ptrs b2 (t * (n * 8)) b1 (t * (n * sz)) sz n].
Definition SEEDS (p : ptr) : hp := ex (fun b => ex (fun b1 => ex (fun b2 => ex (fun b3 => stars [pure (p = Loc b 0);
  tok b ((T + 1) * 16) true; big (SROW b b1 b2 b3) 0 T; at_ b (16 * T) (Ptr Null);
  at_ b (16 * T + 8) (Ptr (if n =? 3 then Loc b1 (T * (n * sz)) else Loc b3 (T * sz)));
  blkc b1 (T * n * sz + salt); tok b2 (T * n * 8 + 8 + T * 8) true; raw b2 (8 * (T * n)) (1 + T); blkc b3 (T * sz + salt)])))).

Lemma seeds_div : (T + 1) * 16 / 8 = T * 2 + 2.
Proof. replace ((T + 1) * 16) with ((T * 2 + 2) * 8) by lia. apply mul8. Qed.
Lemma seeds2_div : (T * n * 8 + 8 + T * 8) / 8 = T * n + (1 + T).
Proof. replace (T * n * 8 + 8 + T * 8) with ((T * n + (1 + T)) * 8) by lia. apply mul8. Qed.

Lemma tr_allocateSeeds : tr [] (allocateSeeds P) (fun p => [SEEDS p]).
Proof.
  unfold allocateSeeds. fold T n sz salt.
  step (tr_blk ((T + 1) * 16) true Undef). subst v. rename x into b.
  step (tr_blk (T * n * sz + salt) true Undef). subst v. rename x into b1.
  step (tr_blk (T * n * 8 + 8 + T * 8) true Undef). subst v. rename x into b2.
  step (tr_blk (T * sz + salt) true Undef). subst v. rename x into b3.
  rewrite seeds_div, seeds2_div. conv (raw_add b 0 (T * 2) 2). conv (raw_add b2 0 (T * n) (1 + T)). cbn [Nat.add].
  conv (raw_rows b T 2). conv (raw_rows b2 T n). conv (big_zip (fun t => raw b2 (8 * n * t) n) (fun t => raw b (8 * 2 * t) 2) 0 T).
  pose proof (tr_mfor (fun i '(slab1, slab2, slab3) =>
    store (Loc b 0 +p 16 * i) slab2;;;
    store (Loc b 0 +p (16 * i + 8)) slab3;;;
    slab1' <~ mfor n 0 (fun j slab1 =>
      a <~ load (Loc b 0 +p 16 * i);;
      store (a +p 8 * j) slab1;;;
      ret (slab1 +p sz)) slab1;;
    ret (slab1', slab2 +p n * 8, slab3 +p sz))
    (fun t => stars [raw b2 (8 * n * t) n; raw b (8 * 2 * t) 2]) (SROW b b1 b2 b3)
    (fun t => (Loc b1 (t * (n * sz)), Loc b2 (t * (n * 8)), Loc b3 (t * sz))) [] T 0) as H.
  cbv beta in H. rewrite !Nat.mul_0_l, Nat.add_0_l in H. step (H _); clear H.
  - intros t _. cbn [plus Nat.add]. open_head. conv (raw2 b (16 * t)).
    step (tr_store_any b (16 * t) (Loc b2 (t * (n * 8)))).
    step (tr_store_any b (16 * t + 8) (Loc b3 (t * sz))).
    replace (8 * n * t) with (t * (n * 8)) by lia.
    step (tr_fill b (16 * t) b2 (t * (n * 8)) b1 (t * (n * sz)) sz n). subst v1.
    done_ret. apply entl_pure_r; [f_equal; [f_equal|]; f_equal; lia|]. unfold SROW. close.
  - subst v. replace (8 * (T * 2)) with (16 * T) by lia. conv (raw2 b (16 * T)). cbn [plus Nat.add].
    step (tr_store_any b (16 * T) Null).
    step (tr_store_any b (16 * T + 8) (if n =? 3 then Loc b1 (T * (n * sz)) else Loc b3 (T * sz))).
    done_ret. apply (entl_ex_r _ b), (entl_ex_r _ b1), (entl_ex_r _ b2), (entl_ex_r _ b3), entl_stars_r. cbn [app].
    apply entl_pure_r; [reflexivity|]. unfold blkc. close.
Qed.

Lemma SROW_raw b b1 b2 b3 : entl [big (SROW b b1 b2 b3) 0 T] [raw b 0 (T * 2); raw b2 0 (T * n)].
Proof.
  apply (entl_trans _ [big (fun t => stars [raw b (8 * 2 * t) 2; raw b2 (8 * n * t) n]) 0 T]).
  - apply big_mono. intros t _. unfold SROW. open_l. conv (at_any b (16 * t) (Ptr (Loc b2 (t * (n * 8))))).
    conv (at_any b (16 * t + 8) (Ptr (Loc b3 (t * sz)))). conv (raw2' b (16 * t)). conv (ptrs_raw b2 (t * (n * 8)) b1 (t * (n * sz)) sz n).
    replace (8 * n * t) with (t * (n * 8)) by lia. close.
  - conv (big_unzip (fun t => raw b (8 * 2 * t) 2) (fun t => raw b2 (8 * n * t) n) 0 T).
    conv (raw_rows' b T 2 (fun t => raw b (8 * 2 * t) 2) ltac:(intros; apply entl_refl)).
    conv (raw_rows' b2 T n (fun t => raw b2 (8 * n * t) n) ltac:(intros; apply entl_refl)). close.
Qed.

Lemma tr_freeSeeds p : 0 < T -> 0 < n -> tr [SEEDS p] (freeSeeds p) (fun _ => []).
Proof.
  intros HT Hn. unfold freeSeeds, SEEDS, blkc. open_head. subst p. rename x into b, x0 into b1, x1 into b2, x2 into b3.
  conv (big_open (SROW b b1 b2 b3) T 0 HT). unfold SROW at 1. rewrite !Nat.mul_0_l, !Nat.mul_0_r. cbn [Nat.add plus]. open_head.
  step (tr_load b 0 (Loc b2 0)). subst v.
  step (tr_load_ptrs0 b2 b1 0 sz n Hn). subst v.
  step (tr_free_blk b1 (T * n * sz + salt)).
  step (tr_load b 8 (Loc b3 0)). subst v0.
  step (tr_free_blk b3 (T * sz + salt)).
  step (tr_load b 0 (Loc b2 0)). subst v1.
  assert (H : entl [at_ b 0 (Ptr (Loc b2 0)); at_ b 8 (Ptr (Loc b3 0)); ptrs b2 0 b1 0 sz n; hole (SROW b b1 b2 b3) T 0]
                   [raw b 0 (T * 2); raw b2 0 (T * n)]).
  { apply (entl_trans _ [SROW b b1 b2 b3 0; hole (SROW b b1 b2 b3) T 0]).
    { unfold SROW at 2. rewrite !Nat.mul_0_l, !Nat.mul_0_r. cbn [Nat.add]. close. }
    apply (entl_trans _ [big (SROW b b1 b2 b3) 0 T]); [apply big_close, HT|apply SROW_raw]. }
  conv H.
  conv (raw_add' b2 0 (T * n) (1 + T)).
  step (tr_free_blk' b2 _ _ seeds2_div).
  conv (at_any b (16 * T) (Ptr Null)). conv (at_any b (16 * T + 8) (Ptr (if n =? 3 then Loc b1 (T * (n * sz)) else Loc b3 (T * sz)))).
  conv (raw2' b (16 * T)). replace (16 * T) with (0 + 8 * (T * 2)) by lia. conv (raw_add' b 0 (T * 2) 2).
  last (tr_free_blk' b _ _ seeds_div). close.
Qed.
End P.

(** ** Trees *)

Definition TREEB (N ds b ba bs : nat) : hp := stars [tok b 56 true;
  any b 0; at_ b 8 (Ptr (Loc ba 0)); any b 16; ofld b 24; ofld b 32; any b 40; any b 48;
  tok ba (N * 8) true; ptrs ba 0 bs 0 ds N; blkc bs (N * ds)].
Definition TREE (N ds : nat) (p : ptr) : hp := ex (fun b => ex (fun ba => ex (fun bs => stars [pure (p = Loc b 0); TREEB N ds b ba bs]))).

Lemma raw7 b : entl [raw b 0 7] [any b 0; any b 8; any b 16; any b 24; any b 32; any b 40; any b 48].
Proof. unfold raw, big. cbn [seq map]. apply entl_stars_l. cbn [app Nat.mul Nat.add]. close. Qed.
Lemma raw7' b : entl [any b 0; any b 8; any b 16; any b 24; any b 32; any b 40; any b 48] [raw b 0 7].
Proof. unfold raw, big. cbn [seq map]. apply entl_stars_r. cbn [app Nat.mul Nat.add]. close. Qed.

Lemma tr_createTree l ds : tr [] (createTree_mem l ds) (fun p => [TREE (tree_nodes l) ds p]).
Proof.
  unfold createTree_mem. set (N := tree_nodes l). step (tr_blk 56 true Undef). subst v. rename x into b.
  change (56 / 8) with 7. conv (raw7 b). cbn [plus Nat.add].
  step (tr_blk (N * 8) true Undef). subst v. rename x into ba. rewrite mul8.
  step (tr_store_any b 8 (Loc ba 0)).
  step (tr_blk (N * ds) true (Ptr Null)). subst v0. rename x into bs.
  step (tr_fill b 8 ba 0 bs 0 ds N).
  do 2 (eapply tr_set; [apply tr_calloc_opt|find1|]).
  done_ret. apply (entl_ex_r _ b), (entl_ex_r _ ba), (entl_ex_r _ bs), entl_stars_r. cbn [app].
  apply entl_pure_r; [reflexivity|]. unfold TREEB, blkc. close.
Qed.
Lemma tr_freeTree N ds p : 0 < N -> tr [TREE N ds p] (freeTree p) (fun _ => []).
Proof.
  intros HN. unfold TREE, TREEB, blkc. open_head. subst p. rename x into b, x0 into ba, x1 into bs. cbn [freeTree plus Nat.add].
  step (tr_load b 8 (Loc ba 0)). subst v. step (tr_load_ptrs0 ba bs 0 ds N HN). subst v.
  step (tr_free_blk bs (N * ds)). step (tr_load b 8 (Loc ba 0)). subst v0. conv (ptrs_raw ba 0 bs 0 ds N).
  step (tr_free_blk' ba _ _ (mul8 N)).
  do 2 (eapply tr_clear; [find1|]). conv (at_any b 8 (Ptr (Loc ba 0))). conv (raw7' b).
  last (tr_free_blk' b 56 7 eq_refl). close.
Qed.

(** Reading the pointers to the leaves. *)
Lemma tr_getLeaf N ds l i p : N = tree_nodes l -> l <= N -> i < l ->
  tr [TREE N ds p] (getLeaf_mem p l i) (fun _ => [TREE N ds p]).
Proof.
  intros HN Hl Hi. unfold getLeaf_mem, TREE. open_head. subst p. rename x into b, x0 into ba, x1 into bs. unfold TREEB at 1. open_head. cbn [plus Nat.add].
  step (tr_load b 8 (Loc ba 0)). subst v. rewrite <- HN. cbn [plus Nat.add].
  last (tr_load_ptrs ba 0 bs 0 ds N (N - l + i) ltac:(lia)). open_l.
  apply (entl_ex_r _ b), (entl_ex_r _ ba), (entl_ex_r _ bs), entl_stars_r. cbn [app]. apply entl_pure_r; [reflexivity|].
  unfold TREEB. close.
Qed.
Lemma tr_getLeaves N ds l b ba bs : N = tree_nodes l ->
  tr [TREEB N ds b ba bs] (getLeaves_mem (Loc b 0) l) (fun q => [pure (q = Loc ba (8 * (N - l))); TREEB N ds b ba bs]).
Proof.
  intros HN. unfold getLeaves_mem. unfold TREEB at 1. open_head. cbn [plus Nat.add].
  step (tr_load b 8 (Loc ba 0)). subst v. done_ret. apply entl_pure_r; [rewrite <- HN; reflexivity|].
  unfold TREEB. close.
Qed.
Lemma tr_leaf N ds l b ba bs i : l <= N -> i < l ->
  tr [TREEB N ds b ba bs] (load (Loc ba (8 * (N - l)) +p 8 * i)) (fun _ => [TREEB N ds b ba bs]).
Proof.
  intros Hl Hi. unfold TREEB at 1. open_head. cbn [plus].
  replace (8 * (N - l) + 8 * i) with (0 + 8 * (N - l + i)) by lia.
  last (tr_load_ptrs ba 0 bs 0 ds N (N - l + i) ltac:(lia)). open_l. unfold TREEB. close.
Qed.

(** Lists of nodes. *)
Lemma tr_getRevealedNodes l hide : 0 < ceil_log2_nat l -> tr [] (getRevealedNodes_mem l hide) (fun p => [opt p]).
Proof.
  intros Hl. unfold getRevealedNodes_mem. set (k := ceil_log2_nat l) in *.
  step (tr_blk (k * 8) true Undef). subst v. rename x into b. rewrite mul8.
  step (tr_blk (hide * k * 8) true Undef). subst v. rename x into bs.
  step (tr_fill_arr b bs 0 (hide * 8) k).
  step (tr_malloc_opt (l * 8)).
  step (tr_load_ptrs0 b bs 0 (hide * 8) k Hl). subst v1.
  step (tr_free_blk bs (hide * k * 8)). conv (ptrs_raw b 0 bs 0 (hide * 8) k).
  step (tr_free_blk' b _ _ (mul8 k)). done_ret. close.
Qed.
Lemma tr_revealSeeds l hide : 0 < ceil_log2_nat l -> tr [] (revealSeeds_mem l hide) (fun _ => []).
Proof.
  intros Hl. unfold revealSeeds_mem. step (tr_getRevealedNodes l hide Hl). last (tr_free_opt v). close.
Qed.
Lemma tr_revealSeedsSize P l hide : 0 < ceil_log2_nat l -> 0 < tree_nodes l -> tr [] (revealSeedsSize_mem P l hide) (fun _ => []).
Proof.
  intros Hl HN. unfold revealSeedsSize_mem. step (tr_createTree l (seedSizeBytes P)). step (tr_getRevealedNodes l hide Hl).
  step (tr_freeTree _ _ v HN). last (tr_free_opt v0). close.
Qed.
Lemma tr_getRevealedMerkleNodes l : tr [] (getRevealedMerkleNodes_mem l) (fun p => [opt p]).
Proof.
  unfold getRevealedMerkleNodes_mem. step (tr_calloc_opt (tree_nodes l) 1). step (tr_malloc_opt (l * 8)).
  step (tr_free_opt v). done_ret. close.
Qed.
Lemma tr_openMerkleTreeSize P l : 0 < tree_nodes l -> tr [] (openMerkleTreeSize_mem P l) (fun _ => []).
Proof.
  intros HN. unfold openMerkleTreeSize_mem. step (tr_createTree l (digestSizeBytes P)). step (tr_getRevealedMerkleNodes l).
  step (tr_freeTree _ _ v HN). last (tr_free_opt v0). close.
Qed.
Lemma tr_openMerkleTree l k : tr [] (openMerkleTree_mem l k) (fun p => [opt p]).
Proof.
  unfold openMerkleTree_mem. step (tr_getRevealedMerkleNodes l). step (tr_malloc_opt k). step (tr_free_opt v). done_ret. close.
Qed.
Lemma tr_addMerkleNodes l : tr [] (addMerkleNodes_mem l) (fun _ => []).
Proof. unfold addMerkleNodes_mem. step (tr_getRevealedMerkleNodes l). last (tr_free_opt v). close. Qed.
