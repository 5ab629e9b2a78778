(** A right inverse of a square matrix over the field of two elements is a left inverse. *)

From Coq Require Import List NArith Arith Bool Lia.
From Verif Require Import Base Params Env Spec BaseFacts LowMCFacts LowMCInj.
Import ListNotations.

Fixpoint blists (n : nat) : list (list bool) :=
  match n with
  | O => [[]]
  | S n' => map (cons false) (blists n') ++ map (cons true) (blists n')
  end.

Lemma blists_in n l : In l (blists n) <-> length l = n.
Proof.
  revert l. induction n as [|n IH]; intros l; cbn [blists].
  - split; [intros [<-|[]]; auto|]. destruct l; [left; auto|discriminate].
  - rewrite in_app_iff, !in_map_iff. split.
    + intros [(x & <- & H)|(x & <- & H)]; cbn; f_equal; apply IH; auto.
    + destruct l as [|[|] l]; [discriminate| |]; intros H; injection H as H; [right|left];
        exists l; (split; [auto|apply IH; auto]).
Qed.

Lemma nodup_map_on {A B} (f : A -> B) l :
  (forall x y, In x l -> In y l -> f x = f y -> x = y) -> NoDup l -> NoDup (map f l).
Proof.
  intros Hf H. induction H as [|x l Hx H IH]; cbn; constructor.
  - rewrite in_map_iff. intros (y & Hy & Hin). apply Hx.
    rewrite (Hf x y); [auto|left; auto|right; auto|auto].
  - apply IH. intros; apply Hf; auto; right; auto.
Qed.

Lemma nodup_app_disj {A} (l l' : list A) :
  NoDup l -> NoDup l' -> (forall a, In a l -> ~ In a l') -> NoDup (l ++ l').
Proof.
  intros H H' Hd. induction H as [|x l Hx H IH]; [auto|]. cbn. constructor.
  - rewrite in_app_iff. intros [Hi|Hi]; [auto|]. apply (Hd x); [left|]; auto.
  - apply IH. intros a Ha. apply Hd. right; auto.
Qed.

Lemma blists_nodup n : NoDup (blists n).
Proof.
  induction n as [|n IH]; cbn [blists]; [constructor; [intros []|constructor]|].
  apply nodup_app_disj.
  - apply nodup_map_on; auto. intros x y _ _ H. injection H; auto.
  - apply nodup_map_on; auto. intros x y _ _ H. injection H; auto.
  - intros a. rewrite !in_map_iff. intros (x & <- & _) (y & H & _). discriminate.
Qed.

Definition lvec (l : list bool) : vec := fun i => nth i l false.
Definition veclist (n : nat) (v : vec) : list bool := map v (seq 0 n).

Lemma lvec_veclist n v : veq n (lvec (veclist n v)) v.
Proof.
  intros i Hi. unfold lvec, veclist. rewrite (nth_indep _ false (v 0)) by (rewrite map_length, seq_length; auto).
  rewrite map_nth, seq_nth by auto. reflexivity.
Qed.

Lemma veclist_ext n u v : veq n u v -> veclist n u = veclist n v.
Proof. intros H. apply map_ext_in. intros i Hi. apply in_seq in Hi. apply H. lia. Qed.

Lemma veclist_lvec l : veclist (length l) (lvec l) = l.
Proof.
  apply nth_ext with false false; unfold veclist.
  - rewrite map_length, seq_length. auto.
  - rewrite map_length, seq_length. intros i Hi. apply (lvec_veclist (length l) (lvec l)). auto.
Qed.

(** An injective linear map is onto. *)
Lemma inj_onto n (B : matrix) :
  (forall u v, veq n (matvec n B u) (matvec n B v) -> veq n u v) ->
  forall x, exists y, veq n (matvec n B y) x.
Proof.
  intros Hinj x. set (f := fun l => veclist n (matvec n B (lvec l))).
  assert (Hl : forall l, length (f l) = n) by (intros; unfold f, veclist; rewrite map_length, seq_length; auto).
  assert (HN : NoDup (map f (blists n))).
  { apply nodup_map_on; [|apply blists_nodup]. intros a b Ha Hb Hab.
    apply blists_in in Ha. apply blists_in in Hb.
    rewrite <- (veclist_lvec a), <- (veclist_lvec b), Ha, Hb. apply veclist_ext. apply Hinj.
    intros i Hi. rewrite <- (lvec_veclist n (matvec n B (lvec a)) i Hi).
    rewrite <- (lvec_veclist n (matvec n B (lvec b)) i Hi). fold (f a) (f b). rewrite Hab. auto. }
  assert (HI : incl (blists n) (map f (blists n))).
  { apply NoDup_length_incl; [auto|rewrite map_length; auto|].
    intros l Hin. apply in_map_iff in Hin. destruct Hin as (y & <- & _). apply blists_in, Hl. }
  assert (Hx : In (veclist n x) (blists n)).
  { apply blists_in. unfold veclist. rewrite map_length, seq_length. auto. }
  apply HI, in_map_iff in Hx. destruct Hx as (y & Hy & _). exists (lvec y).
  intros i Hi. rewrite <- (lvec_veclist n (matvec n B (lvec y)) i Hi). fold (f y). rewrite Hy.
  apply lvec_veclist; auto.
Qed.

Lemma right_left n A B : is_identity n (matmul n A B) ->
  forall v, veq n (matvec n B (matvec n A v)) v.
Proof.
  intros H. assert (HAB : forall v, veq n (matvec n A (matvec n B v)) v).
  { intros v i Hi. rewrite <- matvec_matmul. apply matvec_identity; auto. }
  intros v. destruct (inj_onto n B) with (x := v) as [y Hy].
  - intros u w Huw i Hi. rewrite <- (HAB u i Hi), <- (HAB w i Hi). apply matvec_ext. auto.
  - intros i Hi. rewrite <- (Hy i Hi). apply matvec_ext. intros j Hj.
    rewrite (matvec_ext n A v (matvec n B y) j); [apply HAB; auto|].
    intros k Hk. symmetry. auto.
Qed.
