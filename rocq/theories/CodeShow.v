(** Programs that show data: what is observed depends on the data shown only. *)

From Coq Require Import List NArith Arith Bool Lia ZifyBool ZifyNat ZifyN.
From Verif Require Import Base MiniC CodeSpec CodeP3Spec MiniCFacts CodeRules CodeLowMC CodeP3 CodeHeap.
Import ListNotations.

Lemma shown_app a b : shown (a ++ b) = shown a ++ shown b.
Proof. unfold shown. induction a as [|e a IH]; cbn [flat_map app]; [reflexivity|]. rewrite IH, app_assoc. reflexivity. Qed.

Section I.
Variable U : nat -> nat -> bytes.

Lemma inv_andthen a f y t : andthen a f = Some (y, t) -> exists x t1 t2, a = Some (x, t1) /\ f x = Some (y, t2) /\ t = t1 ++ t2.
Proof.
  destruct a as [[x t1]|]; [|discriminate]. cbn [andthen]. destruct (f x) as [[z t2]|] eqn:F; [|discriminate]. cbn [emit]. intros H. injection H as <- <-. exists x, t1, t2. auto.
Qed.
Lemma inv_emit l a y t : emit l a = Some (y, t) -> exists t1, a = Some (y, t1) /\ t = l ++ t1.
Proof. destruct a as [[x t1]|]; [|discriminate]. cbn [emit]. intros H. injection H as <- <-. eauto. Qed.

Lemma inv_call s ia da pa ir dr st y t : run U (Call s ia da pa ir dr) st = Some (y, t) ->
  exists ps z, pargevals (iv st) (pv st) pa = Some ps /\
    run U s (mkState (args 0 (map (ieval (iv st)) ia)) (args 0%N (map (deval (iv st) (dv st)) da)) (args [] ps) (mm st) (nx st) (ct st)) = Some (z, t) /\
    y = mkState (copy_back ir (iv z) (iv st)) (copy_back dr (dv z) (dv st)) (pv st) (mm z) (nx z) (ct z).
Proof.
  cbn [run]. destruct (pargevals (iv st) (pv st) pa) as [ps|]; [|discriminate]. destruct (run U s _) as [[z t']|] eqn:F; [|discriminate].
  intros H. injection H as <- <-. exists ps, z. auto.
Qed.
Lemma inv_loc a k s st y t : run U (Loc a k s) st = Some (y, t) ->
  exists z, run U s (mkState (iv st) (dv st) (upd (pv st) a [(nx st, 0)]) (upd (mm st) (nx st) (U (ct st) (ieval (iv st) k))) (S (nx st)) (S (ct st))) = Some (z, t) /\
    y = mkState (iv z) (dv z) (upd (pv z) a (pv st a)) (upd (mm z) (nx st) []) (nx st) (ct z).
Proof. cbn [run]. destruct (run U s _) as [[z t']|] eqn:F; [|discriminate]. intros H. injection H as <- <-. exists z. auto. Qed.

Lemma shown_loop f : (forall i x y t, f i x = Some (y, t) -> shown t = []) -> forall n i step x y t, loop f n i step x = Some (y, t) -> shown t = [].
Proof.
  intros Hf. induction n as [|n IH]; intros i step x y t H; cbn [loop] in H; [injection H as <- <-; reflexivity|].
  destruct (inv_andthen _ _ _ _ H) as (z & t1 & t2 & A & B & ->). rewrite shown_app, (Hf _ _ _ _ A), (IH _ _ _ _ _ B). reflexivity.
Qed.

Lemma shown_nothing s : shows_nothing s = true -> forall x y t, run U s x = Some (y, t) -> shown t = [].
Proof.
  induction s as [|s1 IH1 s2 IH2|a e|a e|a l|w a p|w p e|p q n|p b n|a lo hi step s IH|c s1 IH1 s2 IH2|a n s IH|s IH ia da pa ir dr|e s1 IH1 s2 IH2|a e];
    cbn [shows_nothing]; intros Hs x y t H; try discriminate.
  - injection H as <- <-. reflexivity.
  - apply andb_true_iff in Hs. cbn [run] in H. destruct (inv_andthen _ _ _ _ H) as (z & t1 & t2 & A & B & ->). rewrite shown_app, (IH1 (proj1 Hs) _ _ _ A), (IH2 (proj2 Hs) _ _ _ B). reflexivity.
  - injection H as <- <-. reflexivity.
  - injection H as <- <-. reflexivity.
  - cbn [run] in H. destruct (pevals _ _ l); [|discriminate]. injection H as <- <-. reflexivity.
  - cbn [run] in H. destruct (peval _ _ p); [|discriminate]. destruct (valid _ _ _ _); [|discriminate]. injection H as <- <-. reflexivity.
  - cbn [run] in H. destruct (peval _ _ p); [|discriminate]. destruct (valid _ _ _ _); [|discriminate]. injection H as <- <-. reflexivity.
  - cbn [run] in H. destruct (peval _ _ p); [|discriminate]. destruct (peval _ _ q); [|discriminate]. destruct (_ && _); [|discriminate]. injection H as <- <-. reflexivity.
  - cbn [run] in H. destruct (peval _ _ p); [|discriminate]. destruct (valid _ _ _ _); [|discriminate]. injection H as <- <-. reflexivity.
  - cbn [run] in H. destruct (inv_emit _ _ _ _ H) as (t1 & A & ->). rewrite shown_app. cbn [shown flat_map app].
    apply (shown_loop _ (fun i x0 y0 t0 => IH Hs _ y0 t0) _ _ _ _ _ _ A).
  - apply andb_true_iff in Hs. cbn [run] in H. destruct (ceval _ _ c) as [b|]; [|discriminate]. destruct (inv_emit _ _ _ _ H) as (t1 & A & ->). rewrite shown_app. cbn [shown flat_map app].
    destruct b; [apply (IH1 (proj1 Hs) _ _ _ A)|apply (IH2 (proj2 Hs) _ _ _ A)].
  - destruct (inv_loc _ _ _ _ _ _ H) as (z & A & _). apply (IH Hs _ _ _ A).
  - destruct (inv_call _ _ _ _ _ _ _ _ _ H) as (ps & z & _ & A & _). apply (IH Hs _ _ _ A).
Qed.

(** A loop that shows one value per pass and keeps the disjunction of all. *)
Lemma shown_zeros g : (forall i a b tt, g i a = Some (b, tt) -> exists d, shown tt = [d] /\ dv b 2 = N.lor (dv a 2) d) ->
  forall n j s z t, loop g n j 1 s = Some (z, t) -> dv z 2 = 0%N -> shown t = repeat 0%N n.
Proof.
  intros St.
  assert (Mono : forall k j' s' b' t', loop g k j' 1 s' = Some (b', t') -> dv b' 2 = 0%N -> dv s' 2 = 0%N).
  { induction k as [|k IHk]; intros j' s' b' t' Hl H0; cbn [loop] in Hl; [injection Hl as <- <-; exact H0|].
    destruct (inv_andthen _ _ _ _ Hl) as (b1 & t1 & t2 & A & B & ->). destruct (St _ _ _ _ A) as (d & _ & Dd). specialize (IHk _ _ _ _ B H0).
    rewrite Dd in IHk. apply N.lor_eq_0_iff in IHk. apply IHk. }
  induction n as [|n IH]; intros j s z t C Hd; cbn [loop] in C.
  - injection C as <- <-. reflexivity.
  - destruct (inv_andthen _ _ _ _ C) as (b1 & t4 & t5 & A & B & ->). destruct (St _ _ _ _ A) as (d & Sd & Dd).
    pose proof (Mono _ _ _ _ _ B Hd) as Z. rewrite Dd in Z. apply N.lor_eq_0_iff in Z. destruct Z as [_ ->].
    rewrite shown_app, Sd, (IH _ _ _ _ B Hd). reflexivity.
Qed.

(** [memcmp] that finds no difference shows zeros. *)
Lemma shown_memcmp x pa pb e st y t : run U (c_memcmp x pa pb e) st = Some (y, t) -> dv y x = 0%N -> shown t = repeat 0%N (ieval (iv st) e).
Proof.
  unfold c_memcmp. intros H. destruct (inv_call _ _ _ _ _ _ _ _ _ H) as (ps & z & _ & R & ->). clear H. cbn [dv copy_back]. rewrite upd_eq. intros Hd.
  unfold memcmp_body in R. match type of R with run U (Seq _ (For _ _ _ _ ?b)) _ = _ => set (body := b) in R end. cbn [run] in R. destruct (inv_andthen _ _ _ _ R) as (z1 & t1 & t2 & A & B & ->). clear R.
  injection A as <- <-. cbn [app]. destruct (inv_emit _ _ _ _ B) as (t3 & C & ->). clear B. rewrite shown_app. cbn [shown flat_map app]. fold (shown t3).
  cbn [map ieval iv set_dv dv] in C. change (args 0 [ieval (iv st) e] 0) with (ieval (iv st) e) in C. rewrite Nat.sub_0_r, Nat.add_0_r, Nat.div_1_r in C.
  match type of C with loop ?f _ _ _ ?s = _ => set (g := f) in C; generalize dependent s end.
  assert (St : forall i a b tt, g i a = Some (b, tt) -> exists d, shown tt = [d] /\ dv b 2 = N.lor (dv a 2) d).
  { intros i a b tt. unfold g, body. cbn [run]. intros G. destruct (inv_andthen _ _ _ _ G) as (b1 & t4 & t5 & A & B & ->). clear G.
    destruct (peval _ _ _) as [q|] in A; [|discriminate]. destruct (valid _ _ _ _) in A; [|discriminate]. injection A as <- <-.
    destruct (inv_andthen _ _ _ _ B) as (b2 & t6 & t7 & A & G & ->). clear B.
    destruct (peval _ _ _) as [q'|] in A; [|discriminate]. destruct (valid _ _ _ _) in A; [|discriminate]. injection A as <- <-.
    destruct (inv_andthen _ _ _ _ G) as (b3 & t8 & t9 & A & B & ->). clear G. injection A as <- <-. injection B as <- <-.
    eexists. split; reflexivity. }
  intros s C. apply (shown_zeros g St _ 0 s z t3); auto.
Qed.
End I.

Section R.
Variables (U U' : nat -> nat -> bytes) (HU : forall k n, length (U k n) = length (U' k n)).

Definition same_shown (a b : outcome) : Prop := forall x t y t' r r', a = Some (x, t) -> b = Some (y, t') -> shown t ++ r = shown t' ++ r' ->
  t = t' /\ r = r' /\ same_public x y.

Lemma shown_andthen a b f g : same_shown a b -> (forall x y, same_public x y -> same_shown (f x) (g y)) -> same_shown (andthen a f) (andthen b g).
Proof.
  intros H Hf x t y t' r r' A B S. destruct (inv_andthen _ _ _ _ A) as (x1 & t1 & t2 & A1 & A2 & ->). destruct (inv_andthen _ _ _ _ B) as (y1 & s1 & s2 & B1 & B2 & ->).
  rewrite !shown_app, <- !app_assoc in S. destruct (H _ _ _ _ _ _ A1 B1 S) as (-> & S2 & P). destruct (Hf _ _ P _ _ _ _ _ _ A2 B2 S2) as (-> & -> & P2). auto.
Qed.
Lemma shown_emit l a b : same_shown a b -> same_shown (emit l a) (emit l b).
Proof.
  intros H x t y t' r r' A B S. destruct (inv_emit _ _ _ _ A) as (t1 & A1 & ->). destruct (inv_emit _ _ _ _ B) as (t2 & B1 & ->).
  rewrite !shown_app, <- !app_assoc in S. apply app_inv_head in S. destruct (H _ _ _ _ _ _ A1 B1 S) as (-> & -> & P). auto.
Qed.
Lemma same_shown_loop f g : (forall i x y, same_public x y -> same_shown (f i x) (g i y)) -> forall n i step x y, same_public x y -> same_shown (loop f n i step x) (loop g n i step y).
Proof.
  intros Hf. induction n as [|n IH]; intros i step x y H; cbn [loop].
  - intros x' t y' t' r r' A B S. injection A as <- <-. injection B as <- <-. auto.
  - apply shown_andthen; auto.
Qed.
Lemma shown_of_same s x y : shows_nothing s = true -> same_public x y -> same_shown (run U s x) (run U' s y).
Proof.
  intros Hs H x' t y' t' r r' A B S. pose proof (run_same U U' HU s Hs x y H) as R. rewrite A, B in R. destruct R as [-> P]. split; [reflexivity|]. split; [|exact P].
  apply app_inv_head in S. exact S.
Qed.

Lemma run_shown s : forall x y, same_public x y -> same_shown (run U s x) (run U' s y).
Proof.
  induction s as [|s1 IH1 s2 IH2|a e|a e|a l|w a p|w p e|p q n|p b n|a lo hi step s IH|c s1 IH1 s2 IH2|a n s IH|s IH ia da pa ir dr|e s1 IH1 s2 IH2|a e];
    intros x y H; try (apply shown_of_same; [reflexivity|exact H]); pose proof H as (Hi & Hp & Hn & Hc & Hm).
  - cbn [run]. apply shown_andthen; auto.
  - cbn [run]. rewrite <- Hi. apply shown_emit, same_shown_loop; [|exact H]. intros i u v (A1 & A2 & A3 & A4 & A5). apply IH. unfold same_public. cbn. rewrite A1. auto.
  - cbn [run]. rewrite <- Hi, <- Hp. destruct (ceval (iv x) (pv x) c) as [b|]; [|intros x' t y' t' r r' A; discriminate]. apply shown_emit. destruct b; auto.
  - intros x' t y' t' r r' A B S. destruct (inv_loc _ _ _ _ _ _ _ A) as (u & A1 & ->). destruct (inv_loc _ _ _ _ _ _ _ B) as (v & B1 & ->). rewrite <- Hi, <- Hp, <- Hn, <- Hc in *.
    match type of A1 with run U s ?a = _ => set (x1 := a) in A1 end. match type of B1 with run U' s ?a = _ => set (y1 := a) in B1 end.
    assert (Hxy : same_public x1 y1) by (unfold same_public, x1, y1; cbn; repeat (split; auto); apply upd_same_length; auto).
    destruct (IH _ _ Hxy _ _ _ _ _ _ A1 B1 S) as (-> & -> & (A2 & A3 & A4 & A5 & A6)). split; [reflexivity|]. split; [reflexivity|]. unfold same_public. cbn. rewrite A2, A3, A5.
    repeat (split; auto). apply upd_same_length; auto.
  - intros x' t y' t' r r' A B S. destruct (inv_call _ _ _ _ _ _ _ _ _ _ A) as (ps & u & E1 & A1 & ->). destruct (inv_call _ _ _ _ _ _ _ _ _ _ B) as (ps' & v & E2 & B1 & ->).
    rewrite <- Hi, <- Hp in *. rewrite E1 in E2. injection E2 as <-.
    match type of A1 with run U s ?a = _ => set (x1 := a) in A1 end. match type of B1 with run U' s ?a = _ => set (y1 := a) in B1 end.
    assert (Hxy : same_public x1 y1) by (unfold same_public, x1, y1; cbn; repeat (split; auto)).
    destruct (IH _ _ Hxy _ _ _ _ _ _ A1 B1 S) as (-> & -> & (A2 & A3 & A4 & A5 & A6)). split; [reflexivity|]. split; [reflexivity|]. unfold same_public. cbn. rewrite A2. repeat (split; auto).
  - cbn [run]. intros x' t y' t' r r' A B S. destruct (inv_emit _ _ _ _ A) as (t1 & A1 & ->). destruct (inv_emit _ _ _ _ B) as (t2 & B1 & ->). cbn [shown flat_map app] in S. fold (shown t1) (shown t2) in S.
    injection S as Sd S. rewrite <- Sd in B1 |- *. destruct (N.eqb (deval (iv x) (dv x) e) 0); [destruct (IH2 _ _ H _ _ _ _ _ _ A1 B1 S) as (-> & -> & P)|destruct (IH1 _ _ H _ _ _ _ _ _ A1 B1 S) as (-> & -> & P)]; auto.
  - cbn [run]. intros x' t y' t' r r' A B S. injection A as <- <-. injection B as <- <-. cbn [shown flat_map app] in S. injection S as Sd S. rewrite <- Sd. split; [reflexivity|]. split; [exact S|].
    unfold same_public. cbn. rewrite Hi. repeat (split; auto).
Qed.
End R.
