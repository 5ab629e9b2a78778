(** Facts about the small language: secret-independence of observations, rules for running programs. *)

From Coq Require Import List NArith Arith Bool Lia ZifyBool ZifyNat ZifyN.
From Verif Require Import Base MiniC CodeSpec BaseFacts.
Import ListNotations.

(** ** Programs that show no data *)

Definition same_run (a b : outcome) : Prop :=
  match a, b with
  | Some (x, t), Some (y, t') => t = t' /\ same_public x y
  | None, None => True
  | _, _ => False
  end.

Lemma same_emit l a b : same_run a b -> same_run (emit l a) (emit l b).
Proof. destruct a as [[x t]|], b as [[y t']|]; cbn; auto. intros [-> H]. auto. Qed.

Lemma same_andthen a b f g : same_run a b -> (forall x y, same_public x y -> same_run (f x) (g y)) ->
  same_run (andthen a f) (andthen b g).
Proof. destruct a as [[x t]|], b as [[y t']|]; cbn; try tauto. intros [-> H] Hf. apply same_emit, Hf, H. Qed.

Lemma same_loop f g (Hf : forall i x y, same_public x y -> same_run (f i x) (g i y)) n : forall i step x y,
  same_public x y -> same_run (loop f n i step x) (loop g n i step y).
Proof.
  induction n as [|n IH]; intros i step x y H; cbn [loop]; [cbn; auto|].
  apply same_andthen; auto.
Qed.

Lemma length_bytes_of_word w : forall d, length (bytes_of_word w d) = w.
Proof. induction w; intros d; cbn; auto. Qed.

Lemma upd_same_length (m m' : memory) b x y : (forall k, length (m k) = length (m' k)) -> length x = length y ->
  forall k, length (upd m b x k) = length (upd m' b y k).
Proof. intros H Hx k. unfold upd. destruct (k =? b); auto. Qed.

Lemma wrmem_same_length m m' p l l' : (forall k, length (m k) = length (m' k)) -> length l = length l' ->
  forall k, length (wrmem m p l k) = length (wrmem m' p l' k).
Proof.
  intros H Hl. apply upd_same_length; [exact H|]. rewrite !app_length, !firstn_length, !skipn_length, H, Hl. reflexivity.
Qed.

Lemma valid_same m m' n a p : (forall k, length (m k) = length (m' k)) -> valid m n a p = valid m' n a p.
Proof. intros H. unfold valid. rewrite H. reflexivity. Qed.

Lemma run_same U U' (HU : forall k n, length (U k n) = length (U' k n)) s : shows_nothing s = true ->
  forall x y, same_public x y -> same_run (run U s x) (run U' s y).
Proof.
  induction s as [|s1 IH1 s2 IH2|a e|a e|a l|w a p|w p e|p q n|p b n|a lo hi step s IH|c s1 IH1 s2 IH2|a n s IH|s IH ia da pa ir dr|e s1 IH1 s2 IH2|a e];
    cbn [shows_nothing]; intros Hs x y H; try discriminate; pose proof H as (Hi & Hp & Hn & Hc & Hm).
  - cbn. auto.
  - apply andb_true_iff in Hs. cbn [run]. apply same_andthen; [apply IH1; tauto|]. intros. apply IH2; tauto.
  - cbn. split; [reflexivity|]. unfold same_public. cbn. rewrite Hi. auto.
  - cbn. split; [reflexivity|]. unfold same_public. cbn. auto.
  - cbn. rewrite <- Hi, <- Hp. destruct (pevals (iv x) (pv x) l); cbn; [|auto]. split; [reflexivity|]. unfold same_public. cbn. rewrite Hp. auto.
  - cbn. rewrite <- Hi, <- Hp. destruct (peval (iv x) (pv x) p) as [q|]; cbn; [|auto]. rewrite (valid_same _ _ _ _ _ Hm).
    destruct (valid (mm y) w w q); cbn; [|auto]. split; [reflexivity|]. unfold same_public. cbn. auto.
  - cbn. rewrite <- Hi, <- Hp. destruct (peval (iv x) (pv x) p) as [q|]; cbn; [|auto]. rewrite (valid_same _ _ _ _ _ Hm).
    destruct (valid (mm y) w w q); cbn; [|auto]. split; [reflexivity|]. unfold same_public. cbn. repeat (split; auto).
    apply wrmem_same_length; auto. rewrite !length_bytes_of_word. reflexivity.
  - cbn. rewrite <- Hi, <- Hp. destruct (peval (iv x) (pv x) p) as [d|]; cbn; [|auto].
    destruct (peval (iv x) (pv x) q) as [z|]; cbn; [|auto]. rewrite !(valid_same _ _ _ _ _ Hm).
    destruct (valid (mm y) (ieval (iv x) n) 1 d && valid (mm y) (ieval (iv x) n) 1 z && separate d z (ieval (iv x) n)); cbn; [|auto].
    split; [reflexivity|]. unfold same_public. cbn. repeat (split; auto).
    apply wrmem_same_length; auto. unfold rdmem. rewrite !firstn_length, !skipn_length, Hm. reflexivity.
  - cbn. rewrite <- Hi, <- Hp. destruct (peval (iv x) (pv x) p) as [d|]; cbn; [|auto]. rewrite (valid_same _ _ _ _ _ Hm).
    destruct (valid (mm y) (ieval (iv x) n) 1 d); cbn; [|auto]. split; [reflexivity|]. unfold same_public. cbn. repeat (split; auto).
    apply wrmem_same_length; auto.
  - cbn [run]. rewrite <- Hi. apply same_emit, same_loop; [|exact H]. intros i u v Huv. apply IH; [exact Hs|].
    destruct Huv as (Hi' & Hp' & Hn' & Hc' & Hm'). unfold same_public. cbn. rewrite Hi'. auto.
  - apply andb_true_iff in Hs. cbn [run]. rewrite <- Hi, <- Hp. destruct (ceval (iv x) (pv x) c) as [b|]; [|cbn; auto].
    apply same_emit. destruct b; [apply IH1|apply IH2]; tauto.
  - cbn [run]. rewrite <- Hi, <- Hp, <- Hn, <- Hc.
    set (x' := mkState _ _ _ _ _ _). set (y' := mkState (iv x) (dv y) _ _ _ _).
    assert (Hxy : same_public x' y').
    { unfold same_public, x', y'. cbn. repeat (split; auto). apply upd_same_length; auto. }
    specialize (IH Hs x' y' Hxy). destruct (run U s x') as [[u t]|], (run U' s y') as [[v t']|]; cbn in IH |- *; auto.
    destruct IH as [-> (A1 & A2 & A3 & A4 & A5)]. split; [reflexivity|]. unfold same_public. cbn. rewrite A1, A2, A4. repeat (split; auto).
    apply upd_same_length; auto.
  - cbn [run]. rewrite <- Hi, <- Hp. destruct (pargevals (iv x) (pv x) pa) as [ps|]; [|cbn; auto].
    set (x' := mkState _ _ _ _ _ _). set (y' := mkState _ (args 0%N (map (deval (iv x) (dv y)) da)) _ _ _ _).
    assert (Hxy : same_public x' y') by (unfold same_public, x', y'; cbn; repeat (split; auto)).
    specialize (IH Hs x' y' Hxy). destruct (run U s x') as [[u t]|], (run U' s y') as [[v t']|]; cbn in IH |- *; auto.
    destruct IH as [-> (A1 & A2 & A3 & A4 & A5)]. split; [reflexivity|]. unfold same_public. cbn. rewrite A1. repeat (split; auto).
Qed.
