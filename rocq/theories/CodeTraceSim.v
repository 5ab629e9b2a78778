(** What is observed of a run can be computed from the placement of the objects and the data shown. *)

From Coq Require Import List NArith Arith Bool Lia.
From Verif Require Import Base MiniC CodeSpec CodeP3Spec CodeTraceSpec MiniCFacts CodeRules CodeShow.
Import ListNotations.

Section R.
Variable U : nat -> nat -> bytes.

Lemma sim_loop_run f g : (forall i x y t r, f i x = Some (y, t) -> g i (place x) (shown t ++ r) = (place y, t, r)) ->
  forall n i step x y t r, loop f n i step x = Some (y, t) -> sim_loop g n i step (place x) (shown t ++ r) = (place y, t, r).
Proof.
  intros Hf. induction n as [|n IH]; intros i step x y t r H; cbn [loop sim_loop] in *.
  - injection H as <- <-. reflexivity.
  - destruct (inv_andthen _ _ _ _ H) as (z & t1 & t2 & A & B & ->). rewrite shown_app, <- app_assoc, (Hf _ _ _ _ _ A), (IH _ _ _ _ _ _ B). reflexivity.
Qed.

Lemma sim_run s : forall x y t r, run U s x = Some (y, t) -> sim s (place x) (shown t ++ r) = (place y, t, r).
Proof.
  induction s as [|s1 IH1 s2 IH2|a e|a e|a l|w a p|w p e|p q n|p b n|a lo hi step s IH|c s1 IH1 s2 IH2|a n s IH|s IH ia da pa ir dr|e s1 IH1 s2 IH2|a e];
    intros x y t r H.
  - injection H as <- <-. reflexivity.
  - cbn [run sim] in *. destruct (inv_andthen _ _ _ _ H) as (z & t1 & t2 & A & B & ->). rewrite shown_app, <- app_assoc, (IH1 _ _ _ _ A), (IH2 _ _ _ _ B). reflexivity.
  - injection H as <- <-. reflexivity.
  - injection H as <- <-. reflexivity.
  - cbn [run sim place pl_iv pl_pv] in *. destruct (pevals _ _ l) as [ps|]; [|discriminate]. injection H as <- <-. reflexivity.
  - cbn [run sim place pl_iv pl_pv] in *. destruct (peval _ _ p) as [k|]; [|discriminate]. destruct (valid _ _ _ _); [|discriminate]. injection H as <- <-. reflexivity.
  - cbn [run sim place pl_iv pl_pv] in *. destruct (peval _ _ p) as [k|]; [|discriminate]. destruct (valid _ _ _ _); [|discriminate]. injection H as <- <-. reflexivity.
  - cbn [run sim place pl_iv pl_pv] in *. destruct (peval _ _ p) as [k|]; [|discriminate]. destruct (peval _ _ q) as [k'|]; [|discriminate]. destruct (_ && _); [|discriminate]. injection H as <- <-. reflexivity.
  - cbn [run sim place pl_iv pl_pv] in *. destruct (peval _ _ p) as [k|]; [|discriminate]. destruct (valid _ _ _ _); [|discriminate]. injection H as <- <-. reflexivity.
  - cbn [run] in H. destruct (inv_emit _ _ _ _ H) as (t1 & A & ->). rewrite shown_app. cbn [shown flat_map app]. fold (shown t1). cbn [sim place pl_iv pl_pv].
    pose proof (sim_loop_run _ (fun k b => sim s (mkPlacement (upd (pl_iv b) a k) (pl_pv b) (pl_nx b) (pl_ct b))) (fun i x y t r F => IH (set_iv x (upd (iv x) a i)) y t r F) _ _ _ _ _ _ r A) as X.
    change (mkPlacement (iv x) (pv x) (nx x) (ct x)) with (place x). rewrite X. reflexivity.
  - cbn [run] in H. cbn [sim place pl_iv pl_pv]. destruct (ceval _ _ c) as [b|]; [|discriminate]. destruct (inv_emit _ _ _ _ H) as (t1 & A & ->). rewrite shown_app. cbn [shown flat_map app]. fold (shown t1).
    change (mkPlacement (iv x) (pv x) (nx x) (ct x)) with (place x). destruct b; [rewrite (IH1 _ _ _ r A)|rewrite (IH2 _ _ _ r A)]; reflexivity.
  - destruct (inv_loc _ _ _ _ _ _ _ H) as (z & A & ->). cbn [sim]. specialize (IH _ _ _ r A). unfold place in *. cbn [pl_iv pl_pv pl_nx pl_ct iv pv nx ct] in *. rewrite IH. reflexivity.
  - destruct (inv_call _ _ _ _ _ _ _ _ _ _ H) as (ps & z & Ep & A & ->). cbn [sim]. specialize (IH _ _ _ r A). unfold place in *. cbn [pl_iv pl_pv pl_nx pl_ct iv pv nx ct] in *. rewrite Ep, IH. reflexivity.
  - cbn [run] in H. destruct (inv_emit _ _ _ _ H) as (t1 & A & ->). rewrite shown_app. cbn [shown flat_map app]. fold (shown t1). cbn [sim hd tl].
    destruct (N.eqb _ 0); [rewrite (IH2 _ _ _ r A)|rewrite (IH1 _ _ _ r A)]; reflexivity.
  - injection H as <- <-. reflexivity.
Qed.

(** Runs to the end, with a property of the final state and of the data shown. *)
Definition shows (s : stmt) (x : state) (Q : state -> list N -> Prop) : Prop :=
  match run U s x with Some (y, t) => Q y (shown t) | None => False end.

Lemma shows_mono s x (Q Q' : state -> list N -> Prop) : shows s x Q -> (forall y sh, Q y sh -> Q' y sh) -> shows s x Q'.
Proof. unfold shows. destruct (run U s x) as [[y t]|]; auto. Qed.
Lemma shows_seq s1 s2 x (Q : state -> list N -> Prop) : shows s1 x (fun y sh => shows s2 y (fun z sh' => Q z (sh ++ sh'))) -> shows (Seq s1 s2) x Q.
Proof.
  unfold shows. cbn [run]. destruct (run U s1 x) as [[y t]|]; [|auto]. cbn [andthen]. destruct (run U s2 y) as [[z t']|]; [|auto]. cbn [emit]. rewrite shown_app. auto.
Qed.
Lemma shows_if c s1 s2 x b (Q : state -> list N -> Prop) : ceval (iv x) (pv x) c = Some b -> shows (if b then s1 else s2) x Q -> shows (If c s1 s2) x Q.
Proof. intros E. unfold shows. cbn [run]. rewrite E. destruct b; destruct (run U _ x) as [[y t]|]; auto. Qed.
Lemma shows_skip x (Q : state -> list N -> Prop) : Q x [] -> shows Skip x Q.
Proof. auto. Qed.
Lemma shows_quiet s x (Q : state -> list N -> Prop) : shows_nothing s = true -> runs U s x (fun y => Q y []) -> shows s x Q.
Proof. intros SN. unfold runs, shows. pose proof (shown_nothing U s SN x) as H. destruct (run U s x) as [[y t]|]; [|auto]. rewrite (H y t eq_refl). auto. Qed.
Lemma shows_both s x (Q : state -> Prop) (Q' : state -> list N -> Prop) : runs U s x Q -> shows s x Q' -> shows s x (fun y sh => Q y /\ Q' y sh).
Proof. unfold runs, shows. destruct (run U s x) as [[y t]|]; auto. Qed.
Lemma shows_loc a k s x X : shows s (mkState (iv x) (dv x) (upd (pv x) a [(nx x, 0)]) (upd (mm x) (nx x) (U (ct x) (ieval (iv x) k))) (S (nx x)) (S (ct x))) (fun _ sh => sh = X) ->
  shows (Loc a k s) x (fun _ sh => sh = X).
Proof. unfold shows. cbn [run]. destruct (run U s _) as [[y t]|]; auto. Qed.
Lemma shows_call s ia da pa ir dr x ps X : pargevals (iv x) (pv x) pa = Some ps ->
  shows s (mkState (args 0 (map (ieval (iv x)) ia)) (args 0%N (map (deval (iv x) (dv x)) da)) (args [] ps) (mm x) (nx x) (ct x)) (fun _ sh => sh = X) ->
  shows (Call s ia da pa ir dr) x (fun _ sh => sh = X).
Proof. intros E. unfold shows. cbn [run]. rewrite E. destruct (run U s _) as [[y t]|]; auto. Qed.
Lemma shows_toi a e x (Q : state -> list N -> Prop) : Q (set_iv x (upd (iv x) a (N.to_nat (deval (iv x) (dv x) e)))) [deval (iv x) (dv x) e] -> shows (ToI a e) x Q.
Proof. auto. Qed.
End R.
