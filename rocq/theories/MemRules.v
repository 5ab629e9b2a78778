(** Rules for blocks, pointer fields and arrays of pointers. *)

From Coq Require Import List NArith Arith Bool Lia Permutation.
From Verif Require Import Base Memory MemLogic.
Import ListNotations.

(** ** Finding the assertions a step needs *)

Lemma perm_here {A} (x : A) l : Permutation (x :: l) (x :: l).
Proof. reflexivity. Qed.
Lemma perm_there {A} (x y : A) l l' : Permutation l (x :: l') -> Permutation (y :: l) (x :: y :: l').
Proof. intros H. rewrite H. apply perm_swap. Qed.
Lemma perm_take {A} (x : A) l l' Q R : Permutation l (x :: l') -> Permutation l' (Q ++ R) -> Permutation l ((x :: Q) ++ R).
Proof. intros H K. rewrite H, K. reflexivity. Qed.
Lemma perm_done {A} (l : list A) : Permutation l ([] ++ l).
Proof. reflexivity. Qed.

Ltac find1 := first [apply perm_here | apply perm_there; find1].
Ltac find_all := cbv beta; lazymatch goal with
  | |- Permutation _ ([] ++ _) => apply perm_done
  | |- Permutation _ ((_ :: _) ++ _) => eapply perm_take; [find1 | find_all]
  end.

Lemma tr_front {A} x l l' (f : M A) Q : Permutation l (x :: l') -> tr (x :: l') f Q -> tr l f Q.
Proof. intros H. apply tr_pre, entl_perm, H. Qed.
Lemma entl_front x l l' r : Permutation l (x :: l') -> entl (x :: l') r -> entl l r.
Proof. intros H. apply entl_trans, entl_perm, H. Qed.
Ltac front X := first [ eapply (tr_front X); [find1|] | eapply (entl_front X); [find1|] ].

Lemma entl_ex_out {A} (X : A -> hp) l l' : (forall x, entl (X x :: l) l') -> entl (ex X :: l) l'.
Proof. intros H L HL. apply holds_ex in HL. destruct HL as (x & HL). apply (H x), HL. Qed.
Lemma entl_pure_out (Q : Prop) l l' : (Q -> entl l l') -> entl (pure Q :: l) l'.
Proof. intros H L HL. apply holds_pure in HL. apply H; apply HL. Qed.
Lemma entl_stars_l l r l' : entl (l ++ r) l' -> entl (stars l :: r) l'.
Proof. intros H. apply (entl_trans _ (l ++ r)); [apply entl_stars_out|exact H]. Qed.

(** Open existentials, facts and groups. *)
Ltac find_open l := lazymatch l with
  | ex ?a :: _ => constr:(ex a)
  | pure ?a :: _ => constr:(pure a)
  | stars ?a :: _ => constr:(stars a)
  | _ :: ?r => find_open r
  end.
Ltac open_head := repeat lazymatch goal with
  | |- tr (ex _ :: _) _ _ => apply tr_ex; intro
  | |- tr (pure _ :: _) _ _ => apply tr_pure; intro
  | |- tr (stars _ :: _) _ _ => apply tr_stars; cbn [app]
  | |- tr ?l _ _ => let x := find_open l in front x
  end.
Ltac open_l := repeat lazymatch goal with
  | |- entl (ex _ :: _) _ => apply entl_ex_out; intro
  | |- entl (pure _ :: _) _ => apply entl_pure_out; intro
  | |- entl (stars _ :: _) _ => apply entl_stars_l; cbn [app]
  | |- entl ?l _ => let x := find_open l in front x
  end.

(** [step H]: the next operation by the triple [H]. *)
Tactic Notation "step" uconstr(H) := eapply tr_step; [refine H | find_all | intros ?; cbn [app]; open_head].
Tactic Notation "last" uconstr(H) := eapply tr_last; [refine H | find_all | intros ?; cbn [app]].

Lemma entl_stars_r l r l' : entl l' (l ++ r) -> entl l' (stars l :: r).
Proof. intros H. apply (entl_trans _ (l ++ r)); [exact H|apply entl_stars_in]. Qed.
Lemma entl_ex_r {A} (X : A -> hp) x l l' : entl l' (X x :: l) -> entl l' (ex X :: l).
Proof. intros H. apply (entl_trans _ (X x :: l)); [exact H|apply entl_ex_in]. Qed.
Lemma entl_pure_r (Q : Prop) l l' : Q -> entl l' l -> entl l' (pure Q :: l).
Proof. intros HQ H. apply (entl_trans _ l); [exact H|apply entl_pure_in, HQ]. Qed.
(** Take [x] on both sides. *)
Lemma entl_take x l l1 l' : Permutation l (x :: l1) -> entl l1 l' -> entl l (x :: l').
Proof. intros H K. apply (entl_trans _ (x :: l1)); [apply entl_perm, H|apply entl_cons, K]. Qed.
(** Replace the assertions [a], found in [l], by [b]. *)
Lemma entl_conv a b l r l' : entl a b -> Permutation l (a ++ r) -> entl (b ++ r) l' -> entl l l'.
Proof.
  intros H Hp K. apply (entl_trans _ (a ++ r)); [apply entl_perm, Hp|]. apply (entl_trans _ (b ++ r)); [|exact K].
  apply entl_app; [exact H|apply entl_refl].
Qed.
Lemma tr_conv {A} a b l r (f : M A) Q : entl a b -> Permutation l (a ++ r) -> tr (b ++ r) f Q -> tr l f Q.
Proof. intros H Hp K. apply (tr_pre _ (b ++ r)); [|exact K]. apply (entl_conv a b l r); auto. apply entl_refl. Qed.

Tactic Notation "conv" uconstr(H) :=
  first [ eapply tr_conv; [refine H | find_all | cbn [app]; open_head]
        | eapply entl_conv; [refine H | find_all | cbn [app]] ].
Ltac take := repeat first [ apply entl_refl | eapply entl_take; [find1|] ].
(** Close the right-hand side. *)
Ltac close := repeat first [ apply entl_refl
  | lazymatch goal with |- entl _ (stars _ :: _) => apply entl_stars_r; cbn [app] end
  | eapply entl_take; [find1|] ].

(** ** Blocks *)

Definition raw (b o k : nat) : hp := big (fun j => any b (o + 8 * j)) 0 k.
Definition blkc (b n : nat) : hp := stars [tok b n true; raw b 0 (n / 8)].

(** What may be passed to [free]. *)
Definition opt (p : ptr) : hp :=
  match p with Null => emp | Loc b 0 => ex (fun n => blkc b n) | _ => pure False end.
(** A pointer field that may be freed. *)
Definition ofld (b o : nat) : hp := ex (fun p => stars [at_ b o (Ptr p); opt p]).

Lemma big_ext A B i n : (forall j, A j = B j) -> big A i n = big B i n.
Proof. intros H. unfold big. f_equal. apply map_ext. exact H. Qed.

Lemma at_raw b n c : entl [big (fun i => at_ b (8 * i) c) 0 n] [raw b 0 n].
Proof. apply big_mono. intros j _. apply at_any. Qed.

Lemma raw_any b n : raw b 0 n = big (fun i => any b (8 * i)) 0 n.
Proof. reflexivity. Qed.

Lemma emp_out l : entl (emp :: l) l.
Proof.
  intros L H. apply holds_cons in H. destruct H as (L1 & L2 & Hp & H1 & H2). unfold emp in H1. subst L1.
  apply (holds_perm _ L2); [symmetry; exact Hp|exact H2].
Qed.
Lemma emp_in l : entl l (emp :: l).
Proof. intros L H. apply holds_cons. exists [], L. split; [reflexivity|]. split; [reflexivity|exact H]. Qed.

Lemma tr_blk n h c : tr [] (new_block n h c)
  (fun p => [ex (fun b => stars [pure (p = Loc b 0); tok b n h; raw b 0 (n / 8)])]).
Proof.
  apply (tr_post _ _ _ _ (tr_new n h c)). intros p. open_l. apply (entl_ex_r _ x). apply entl_stars_r. cbn [app].
  apply entl_pure_r; [exact H|]. conv (at_raw x (n / 8) c). take.
Qed.

Lemma tr_new_opt n c : tr [] (new_block n true c) (fun p => [opt p]).
Proof.
  apply (tr_post _ _ _ _ (tr_blk n true c)). intros p. open_l. subst p. cbn [opt].
  apply (entl_ex_r _ n). apply entl_stars_r. cbn [app]. take.
Qed.
Lemma tr_malloc_opt n : tr [] (malloc n) (fun p => [opt p]).
Proof. apply tr_new_opt. Qed.
Lemma tr_calloc_opt n s : tr [] (calloc n s) (fun p => [opt p]).
Proof. apply tr_new_opt. Qed.

Lemma tr_free_blk b n : tr [tok b n true; raw b 0 (n / 8)] (free (Loc b 0)) (fun _ => []).
Proof. exact (tr_drop b n true). Qed.
Lemma tr_local_end b n : tr [tok b n false; raw b 0 (n / 8)] (local_end (Loc b 0)) (fun _ => []).
Proof. exact (tr_drop b n false). Qed.

Lemma tr_free_blk' b n k : n / 8 = k -> tr [tok b n true; raw b 0 k] (free (Loc b 0)) (fun _ => []).
Proof. intros <-. apply tr_free_blk. Qed.

Lemma tr_free_opt p : tr [opt p] (free p) (fun _ => []).
Proof.
  destruct p as [|b [|o]]; cbn [opt free].
  - apply (tr_pre _ []); [apply emp_out|]. exact (tr_ret tt (fun _ => [])).
  - apply tr_ex. intros n. apply tr_stars. apply (tr_free_blk b n).
  - apply tr_pure. intros [].
Qed.

Lemma tr_refused : tr [] refused (fun r => [pure (r = false)]).
Proof.
  intros m F [W Wg] H. exists false, m. unfold refused. rewrite Wg. split; [reflexivity|]. split; [split; assumption|].
  cbn [app]. apply holds_pure. split; [reflexivity|exact H].
Qed.

Lemma tr_realloc p n : tr [opt p] (realloc p n) (fun q => [opt q]).
Proof.
  unfold realloc. eapply tr_step; [apply tr_refused|find_all|intros r; cbn [app]; apply tr_pure; intros ->; cbn [andb]].
  eapply tr_step; [apply tr_free_opt|find_all|intros []; cbn [app]].
  destruct (n =? 0).
  - apply (tr_pre _ [opt Null]); [apply emp_in|]. exact (tr_ret Null (fun q => [opt q])).
  - apply tr_malloc_opt.
Qed.

(** ** Fields *)

Lemma tr_store_any b o q : tr [any b o] (store (Loc b o) q) (fun _ => [at_ b o (Ptr q)]).
Proof. apply tr_ex. intros c. apply tr_store. Qed.

Lemma tr_set {A} b o (f : M ptr) (k : M A) l r Q : tr [] f (fun p => [opt p]) ->
  Permutation l (any b o :: r) -> tr (ofld b o :: r) k Q ->
  tr l (p <~ f;; store (Loc b o) p;;; k) Q.
Proof.
  intros Hf Hp Hk. apply (tr_pre _ (any b o :: r)); [apply entl_perm, Hp|].
  eapply tr_step; [exact Hf|find_all|intros p; cbn [app]].
  eapply tr_step; [exact (tr_store_any b o p)|find_all|intros []; cbn [app]].
  refine (tr_pre _ _ _ _ _ Hk). apply (entl_ex_r _ p). apply entl_stars_r. cbn [app]. take.
Qed.
Lemma tr_set_last b o (f : M ptr) l r Q : tr [] f (fun p => [opt p]) ->
  Permutation l (any b o :: r) -> entl (ofld b o :: r) Q ->
  tr l (p <~ f;; store (Loc b o) p) (fun _ => Q).
Proof.
  intros Hf Hp Hk. apply (tr_pre _ (any b o :: r)); [apply entl_perm, Hp|].
  eapply tr_step; [exact Hf|find_all|intros p; cbn [app]].
  eapply tr_last; [exact (tr_store_any b o p)|find_all|intros []; cbn [app]].
  refine (entl_trans _ _ _ _ Hk). apply (entl_ex_r _ p). apply entl_stars_r. cbn [app]. take.
Qed.
Lemma tr_clear {A} b o (k : M A) l r Q :
  Permutation l (ofld b o :: r) -> tr (any b o :: r) k Q -> tr l (p <~ load (Loc b o);; free p;;; k) Q.
Proof.
  intros Hp Hk. apply (tr_pre _ (ofld b o :: r)); [apply entl_perm, Hp|]. unfold ofld at 1. open_head.
  step (tr_load b o x). subst v.
  eapply tr_step; [exact (tr_free_opt x)|find_all|intros []; cbn [app]].
  conv (at_any b o (Ptr x)). exact (tr_pre _ _ _ _ (entl_refl _) Hk).
Qed.
Lemma tr_clear_last b o l r Q :
  Permutation l (ofld b o :: r) -> entl (any b o :: r) Q -> tr l (p <~ load (Loc b o);; free p) (fun _ => Q).
Proof.
  intros Hp Hk. apply (tr_pre _ (ofld b o :: r)); [apply entl_perm, Hp|]. unfold ofld at 1. open_head.
  step (tr_load b o x). subst v.
  eapply tr_last; [exact (tr_free_opt x)|find_all|intros []; cbn [app]].
  eapply entl_trans; [|exact Hk]. conv (at_any b o (Ptr x)). take.
Qed.

(** ** Arrays *)

(** All of [big A 0 n] but [A t]. *)
Definition hole (A : nat -> hp) (n t : nat) : hp := stars [big A 0 t; big A (S t) (n - S t)].
Lemma big_open A n t : t < n -> entl [big A 0 n] [A t; hole A n t].
Proof.
  intros H. replace n with (t + S (n - S t)) at 1 by lia.
  conv (big_add A 0 t (S (n - S t))). conv (big_S A (0 + t) (n - S t)). cbn [Nat.add].
  take. unfold hole. apply entl_stars_r. cbn [app]. take.
Qed.
Lemma big_close A n t : t < n -> entl [A t; hole A n t] [big A 0 n].
Proof.
  intros H. replace n with (t + S (n - S t)) at 2 by lia. unfold hole.
  apply (entl_trans _ [stars [big A 0 t; big A (S t) (n - S t)]; A t]); [apply entl_perm, perm_swap|].
  apply entl_stars_l. cbn [app]. conv (big_S' A (0 + t) (n - S t)). conv (big_add' A 0 t (S (n - S t))). take.
Qed.

Lemma tr_load_big b f p A B n t : t < n -> entl [A t] [at_ b (f t) (Ptr (p t)); B t] -> entl [at_ b (f t) (Ptr (p t)); B t] [A t] ->
  tr [big A 0 n] (load (Loc b (f t))) (fun q => [pure (q = p t); big A 0 n]).
Proof.
  intros Ht H1 H2. conv (big_open A n t Ht). conv H1.
  eapply tr_last; [exact (tr_load b (f t) (p t))|find_all|intros q; cbn [app]].
  open_l. apply entl_pure_r; [assumption|]. conv H2. conv (big_close A n t Ht). take.
Qed.

Lemma raw_add b o n k : entl [raw b o (n + k)] [raw b o n; raw b (o + 8 * n) k].
Proof.
  unfold raw. conv (big_add (fun j => any b (o + 8 * j)) 0 n k). cbn [Nat.add].
  pose proof (big_shift (fun j => any b (o + 8 * j)) 0 n k) as H. rewrite Nat.add_0_r in H. conv H.
  rewrite (big_ext (fun j => any b (o + 8 * (n + j))) (fun j => any b (o + 8 * n + 8 * j))); [take|]. intros j. f_equal. lia.
Qed.
Lemma raw_add' b o n k : entl [raw b o n; raw b (o + 8 * n) k] [raw b o (n + k)].
Proof.
  unfold raw. rewrite (big_ext (fun j => any b (o + 8 * n + 8 * j)) (fun j => any b (o + 8 * (n + j)))); [|intros j; f_equal; lia].
  pose proof (big_shift' (fun j => any b (o + 8 * j)) 0 n k) as H. rewrite Nat.add_0_r in H. conv H.
  conv (big_add' (fun j => any b (o + 8 * j)) 0 n k). take.
Qed.
Lemma raw_rows b T k : entl [raw b 0 (T * k)] [big (fun t => raw b (8 * k * t) k) 0 T].
Proof.
  unfold raw. cbn [Nat.add]. conv (big_rows (fun j => any b (8 * j)) T k).
  rewrite (big_ext (fun t => big (fun j => any b (8 * (t * k + j))) 0 k) (fun t => big (fun j => any b (8 * k * t + 8 * j)) 0 k)); [take|].
  intros t. apply big_ext. intros j. f_equal. lia.
Qed.
Lemma raw_rows' b T k A : (forall t, t < T -> entl [A t] [raw b (8 * k * t) k]) -> entl [big A 0 T] [raw b 0 (T * k)].
Proof.
  intros H. apply (entl_trans _ [big (fun t => raw b (8 * k * t) k) 0 T]); [apply big_mono; intros t Ht; apply H; lia|].
  unfold raw. cbn [Nat.add].
  rewrite (big_ext (fun t => big (fun j => any b (8 * k * t + 8 * j)) 0 k) (fun t => big (fun j => any b (8 * (t * k + j))) 0 k)).
  - apply (big_rows' (fun j => any b (8 * j)) T k).
  - intros t. apply big_ext. intros j. f_equal. lia.
Qed.
Lemma raw1 b o : entl [raw b o 1] [any b o].
Proof. unfold raw, big. cbn [seq map]. apply entl_stars_l. cbn [app]. rewrite Nat.mul_0_r, Nat.add_0_r. take. Qed.
Lemma raw2 b o : entl [raw b o 2] [any b o; any b (o + 8)].
Proof. unfold raw, big. cbn [seq map]. apply entl_stars_l. cbn [app]. rewrite Nat.mul_0_r, Nat.add_0_r. take. Qed.
Lemma raw2' b o : entl [any b o; any b (o + 8)] [raw b o 2].
Proof. unfold raw, big. cbn [seq map]. apply entl_stars_r. cbn [app]. rewrite Nat.mul_0_r, Nat.add_0_r. take. Qed.
Lemma raw3 b o : entl [raw b o 3] [any b o; any b (o + 8); any b (o + 16)].
Proof. unfold raw, big. cbn [seq map]. apply entl_stars_l. cbn [app]. rewrite Nat.mul_0_r, Nat.add_0_r. take. Qed.
Lemma raw3' b o : entl [any b o; any b (o + 8); any b (o + 16)] [raw b o 3].
Proof. unfold raw, big. cbn [seq map]. apply entl_stars_r. cbn [app]. rewrite Nat.mul_0_r, Nat.add_0_r. take. Qed.
Lemma raw6 b o : entl [raw b o 6] [any b o; any b (o + 8); any b (o + 16); any b (o + 24); any b (o + 32); any b (o + 40)].
Proof. unfold raw, big. cbn [seq map]. apply entl_stars_l. cbn [app]. rewrite Nat.mul_0_r, Nat.add_0_r. take. Qed.
Lemma raw6' b o : entl [any b o; any b (o + 8); any b (o + 16); any b (o + 24); any b (o + 32); any b (o + 40)] [raw b o 6].
Proof. unfold raw, big. cbn [seq map]. apply entl_stars_r. cbn [app]. rewrite Nat.mul_0_r, Nat.add_0_r. take. Qed.

(** The loop that stores the addresses of consecutive parts of [sz] bytes. *)
Definition ptrs (ba oa bs os sz n : nat) : hp := big (fun i => at_ ba (oa + 8 * i) (Ptr (Loc bs (os + i * sz)))) 0 n.
Lemma ptrs_raw ba oa bs os sz n : entl [ptrs ba oa bs os sz n] [raw ba oa n].
Proof. apply big_mono. intros j _. apply at_any. Qed.

Lemma tr_fill b o ba oa bs os sz n :
  tr [raw ba oa n; at_ b o (Ptr (Loc ba oa))]
     (mfor n 0 (fun i slab => a <~ load (Loc b o);; store (a +p 8 * i) slab;;; ret (slab +p sz)) (Loc bs os))
     (fun r => [pure (r = Loc bs (os + n * sz)); ptrs ba oa bs os sz n; at_ b o (Ptr (Loc ba oa))]).
Proof.
  pose proof (tr_mfor (fun i slab => a <~ load (Loc b o);; store (a +p 8 * i) slab;;; ret (slab +p sz))
    (fun j => any ba (oa + 8 * j)) (fun i => at_ ba (oa + 8 * i) (Ptr (Loc bs (os + i * sz))))
    (fun i => Loc bs (os + i * sz)) [at_ b o (Ptr (Loc ba oa))] n 0) as H.
  cbn [Nat.mul Nat.add] in H. rewrite Nat.add_0_r in H. apply H. clear H. intros i _.
  step (tr_load b o (Loc ba oa)). subst v. cbn [plus].
  step (tr_store_any ba (oa + 8 * i) (Loc bs (os + i * sz))).
  eapply tr_pre; [|exact (tr_ret _ (fun r => _))]. apply entl_pure_r; [f_equal; lia|]. take.
Qed.

Lemma big_zip A B i n : entl [big A i n; big B i n] [big (fun t => stars [A t; B t]) i n].
Proof.
  revert i. induction n as [|n IH]; intros i.
  - conv (big_O A i). conv (big_O B i). apply big_O'.
  - conv (big_S A i n). conv (big_S B i n). conv (IH (S i)).
    eapply entl_trans; [|apply big_S'].
    apply entl_stars_r. cbn [app]. take.
Qed.
Lemma big_unzip A B i n : entl [big (fun t => stars [A t; B t]) i n] [big A i n; big B i n].
Proof.
  revert i. induction n as [|n IH]; intros i.
  - conv (big_O (fun t => stars [A t; B t]) i). conv (big_O' A i). conv (big_O' B i). take.
  - conv (big_S (fun t => stars [A t; B t]) i n). open_l. conv (IH (S i)).
    conv (big_S' A i n). conv (big_S' B i n). take.
Qed.

(** An array of structures of [8 * k] bytes whose first field points to a part of the slab [bs]: an array of
    [n] pointers followed by [n] parts of [sz] bytes. *)
Definition tab_s (b bs k w T : nat) : hp :=
  big (fun t => stars [at_ b (8 * k * t) (Ptr (Loc bs (8 * w * t))); raw b (8 * k * t + 8) (k - 1)]) 0 T.
Definition tab_p (bs sz n w T : nat) : hp :=
  big (fun t => stars [ptrs bs (8 * w * t) bs (8 * w * t + n * 8) sz n; raw bs (8 * w * t + n * 8) (w - n)]) 0 T.

Lemma tr_table b bs k sz n w T ss : ss = 8 * k -> 1 <= k -> n * 8 + n * sz = 8 * w ->
  tr [raw b 0 (T * k); raw bs 0 (T * w)]
     (mfor T 0 (fun t slab =>
        store (Loc b 0 +p ss * t) slab;;;
        mfor n 0 (fun j slab => a <~ load (Loc b 0 +p ss * t);; store (a +p 8 * j) slab;;; ret (slab +p sz)) (slab +p n * 8))
        (Loc bs 0))
     (fun r => [tab_s b bs k w T; tab_p bs sz n w T]).
Proof.
  intros -> Hk Hw. conv (raw_rows b T k). conv (raw_rows bs T w). conv (big_zip (fun t => raw bs (8 * w * t) w) (fun t => raw b (8 * k * t) k) 0 T).
  eapply tr_post.
  - pose proof (tr_mfor (fun t slab =>
        store (Loc b 0 +p 8 * k * t) slab;;;
        mfor n 0 (fun j slab => a <~ load (Loc b 0 +p 8 * k * t);; store (a +p 8 * j) slab;;; ret (slab +p sz)) (slab +p n * 8))
      (fun t => stars [raw bs (8 * w * t) w; raw b (8 * k * t) k])
      (fun t => stars [stars [at_ b (8 * k * t) (Ptr (Loc bs (8 * w * t))); raw b (8 * k * t + 8) (k - 1)];
                       stars [ptrs bs (8 * w * t) bs (8 * w * t + n * 8) sz n; raw bs (8 * w * t + n * 8) (w - n)]])
      (fun t => Loc bs (8 * w * t)) [] T 0) as H.
    cbv beta in H. rewrite Nat.mul_0_r in H. apply H. clear H. intros t _. cbn [plus Nat.add]. open_head.
    replace (raw b (8 * k * t) k) with (raw b (8 * k * t) (1 + (k - 1))) by (f_equal; lia).
    replace (raw bs (8 * w * t) w) with (raw bs (8 * w * t) (n + (w - n))) by (f_equal; lia).
    conv (raw_add b (8 * k * t) 1 (k - 1)). conv (raw_add bs (8 * w * t) n (w - n)).
    conv (raw1 b (8 * k * t)).
    step (tr_store_any b (8 * k * t) (Loc bs (8 * w * t))).
    last (tr_fill b (8 * k * t) bs (8 * w * t) bs (8 * w * t + n * 8) sz n).
    open_l. apply entl_pure_r; [subst v0; f_equal; lia|]. apply entl_stars_r. cbn [app].
    apply entl_stars_r. cbn [app]. rewrite (Nat.mul_comm n 8).
    eapply entl_take; [find1|]. rewrite Nat.mul_1_r. eapply entl_take; [find1|].
    apply entl_stars_r. cbn [app]. take.
  - cbv beta. cbn [app]. intros v. open_l. conv (big_unzip (fun t => stars [at_ b (8 * k * t) (Ptr (Loc bs (8 * w * t))); raw b (8 * k * t + 8) (k - 1)])
      (fun t => stars [ptrs bs (8 * w * t) bs (8 * w * t + n * 8) sz n; raw bs (8 * w * t + n * 8) (w - n)]) 0 T). take.
Qed.

Lemma tab_s_raw b bs k w T : 1 <= k -> entl [tab_s b bs k w T] [raw b 0 (T * k)].
Proof.
  intros Hk. apply raw_rows'. intros t _. open_l. conv (at_any b (8 * k * t) (Ptr (Loc bs (8 * w * t)))).
  assert (H1 : entl [any b (8 * k * t)] [raw b (8 * k * t) 1]).
  { unfold raw, big. cbn [seq map]. apply entl_stars_r. cbn [app]. rewrite Nat.mul_0_r, Nat.add_0_r. take. }
  conv H1. replace k with (1 + (k - 1)) at 5 by lia.
  pose proof (raw_add' b (8 * k * t) 1 (k - 1)) as H2. rewrite Nat.mul_1_r in H2. conv H2. take.
Qed.
Lemma tab_p_raw bs sz n w T : n <= w -> entl [tab_p bs sz n w T] [raw bs 0 (T * w)].
Proof.
  intros Hk. apply raw_rows'. intros t _. open_l. conv (ptrs_raw bs (8 * w * t) bs (8 * w * t + n * 8) sz n).
  replace w with (n + (w - n)) at 5 by lia.
  pose proof (raw_add' bs (8 * w * t) n (w - n)) as H2. rewrite (Nat.mul_comm 8 n) in H2. conv H2. take.
Qed.
Lemma tr_load_tab b bs k w T t : t < T ->
  tr [tab_s b bs k w T] (load (Loc b (8 * k * t))) (fun q => [pure (q = Loc bs (8 * w * t)); tab_s b bs k w T]).
Proof.
  intros Ht. unfold tab_s.
  apply (tr_load_big b (fun t => 8 * k * t) (fun t => Loc bs (8 * w * t))
    (fun t => stars [at_ b (8 * k * t) (Ptr (Loc bs (8 * w * t))); raw b (8 * k * t + 8) (k - 1)])
    (fun t => raw b (8 * k * t + 8) (k - 1)) T t Ht).
  - open_l. take.
  - apply entl_stars_r. cbn [app]. take.
Qed.
