(** Rules for running programs of MiniC, and regions of memory. *)

From Coq Require Import List NArith Arith Bool Lia ZifyBool ZifyNat ZifyN.
From Verif Require Import Base MiniC CodeLowMC CodeSpec BaseFacts MiniCFacts.
Import ListNotations.

(** ** Memory *)

Lemma chg_refl n m rs : chg n m m rs.
Proof. intros b _. auto. Qed.

Lemma chg_trans n m1 m2 m3 r1 r2 rs : chg n m1 m2 r1 -> chg n m2 m3 r2 ->
  (forall x, In x r1 -> In x rs) -> (forall x, In x r2 -> In x rs) -> chg n m1 m3 rs.
Proof.
  intros H1 H2 I1 I2 b Hb. destruct (H1 b Hb) as [A1 B1], (H2 b Hb) as [A2 B2]. split; [congruence|].
  intros i Hi. rewrite B2, B1; auto.
Qed.

Lemma chg_incl n m m' rs rs' : chg n m m' rs -> (forall x, In x rs -> In x rs') -> chg n m m' rs'.
Proof. intros H I b Hb. destruct (H b Hb) as [A B]. split; [auto|]. intros i Hi. apply B. intros p k Hp. apply Hi, I, Hp. Qed.

(** A smaller region. *)
Lemma chg_sub n m m' p k q l : chg n m m' [(p, k)] -> fst p = fst q -> snd q <= snd p -> snd p + k <= snd q + l -> chg n m m' [(q, l)].
Proof.
  intros H Hf H1 H2 b Hb. destruct (H b Hb) as [A B]. split; [auto|]. intros i Hi. apply B.
  intros p' k' [E|[]] Hb'. inversion E. subst p' k'. destruct (Hi q l (or_introl eq_refl) ltac:(congruence)); lia.
Qed.

Lemma chg_weaken n n' m m' rs : chg n' m m' rs -> n <= n' -> chg n m m' rs.
Proof. intros H Hn b Hb. apply H. lia. Qed.

Lemma pts_chg n m m' rs q l : chg n m m' rs -> pts n m q l ->
  (forall p k, In (p, k) rs -> disj p k q (length l)) -> pts n m' q l.
Proof.
  intros H [Hq Hl] D. split; [auto|]. intros i x Hx. destruct (H (fst q) Hq) as [_ B]. rewrite B; [auto|].
  intros p k Hp Hf. pose proof (nth_error_Some l i). assert (i < length l) by (apply H0; congruence).
  destruct (D p k Hp) as [D1|[D1|D1]]; [congruence|right; lia|left; lia].
Qed.

Lemma pts_chg1 n m m' p k q l : chg n m m' [(p, k)] -> pts n m q l -> disj p k q (length l) -> pts n m' q l.
Proof. intros H Hq D. apply (pts_chg n m m' _ q l H Hq). intros p' k' [E|[]]. injection E as <- <-. exact D. Qed.

Lemma pts_bound n m p l : pts n m p l -> l <> [] -> snd p + length l <= length (m (fst p)).
Proof.
  intros [_ H] Hl. destruct l as [|x l]; [congruence|]. clear Hl.
  specialize (H (length l)). destruct (nth_error (x :: l) (length l)) as [y|] eqn:Hy.
  - specialize (H y eq_refl). assert (snd p + length l < length (m (fst p))) by (apply nth_error_Some; congruence). cbn. lia.
  - apply nth_error_None in Hy. cbn in Hy. lia.
Qed.

Lemma pts_valid n m p l k a : pts n m p l -> 0 < k -> k <= length l -> snd p mod a = 0 -> valid m k a p = true.
Proof.
  intros H Hk Hl Ha. pose proof (pts_bound n m p l H) as Hb. unfold valid.
  assert (l <> []) by (intros ->; cbn in Hl; lia). specialize (Hb H0). rewrite Ha. apply andb_true_iff. split; [apply Nat.leb_le; lia|reflexivity].
Qed.

Lemma pts_weaken n n' m p l : pts n m p l -> n <= n' -> pts n' m p l.
Proof. intros [A B] H. split; [lia|auto]. Qed.

(** A part of a region. *)
Lemma pts_sub n m p l o k : pts n m p l -> o + k <= length l -> pts n m (fst p, snd p + o) (firstn k (skipn o l)).
Proof.
  intros [A B] H. split; [exact A|]. intros i x Hx. cbn [fst snd]. rewrite <- Nat.add_assoc. apply B.
  assert (i < k). { assert (i < length (firstn k (skipn o l))) by (apply nth_error_Some; congruence). rewrite firstn_length in *. lia. }
  rewrite (nth_error_nth' _ (o + i) 0%N) by lia.
  assert (Hl : i < length (firstn k (skipn o l))) by (apply nth_error_Some; congruence).
  rewrite (nth_error_nth' _ i 0%N Hl) in Hx. rewrite nth_firstn in Hx by lia. rewrite nth_skipn in Hx. exact Hx.
Qed.

Lemma pts_app n m p a b : pts n m p (a ++ b) <-> pts n m p a /\ (b <> [] -> pts n m (fst p, snd p + length a) b) /\ fst p < n.
Proof.
  split.
  - intros [A B]. split; [|split; [intros _|exact A]]; (split; [exact A|]); intros i x Hx; cbn [fst snd].
    + apply B. rewrite nth_error_app1; [exact Hx|]. apply nth_error_Some. congruence.
    + rewrite <- Nat.add_assoc. apply B. rewrite nth_error_app2 by lia. replace (length a + i - length a) with i by lia. exact Hx.
  - intros [[_ H1] [H2 A]]. split; [exact A|]. intros i x Hx. destruct (Nat.lt_ge_cases i (length a)).
    + apply H1. rewrite nth_error_app1 in Hx by lia. exact Hx.
    + rewrite nth_error_app2 in Hx by lia. destruct b as [|y b]; [destruct (i - length a); discriminate|].
      destruct (H2 ltac:(discriminate)) as [_ H3]. specialize (H3 _ _ Hx). cbn [fst snd] in H3. rewrite <- H3. f_equal. lia.
Qed.

Lemma rdmem_pts n m p l k : pts n m p l -> k <= length l -> rdmem m p k = firstn k l.
Proof.
  intros H Hk. destruct (Nat.eq_dec k 0) as [->|Hk0]; [reflexivity|].
  pose proof (pts_bound n m p l H ltac:(intros ->; cbn in Hk; lia)) as Hb. destruct H as [_ H]. unfold rdmem.
  apply (list_ext 0%N).
  - rewrite !firstn_length, skipn_length. lia.
  - intros i Hi. rewrite firstn_length, skipn_length in Hi. rewrite !nth_firstn by lia. rewrite nth_skipn.
    specialize (H i (nth i l 0%N) (nth_error_nth' l i 0%N ltac:(lia))). apply nth_error_nth with (d := 0%N) in H. exact H.
Qed.

Lemma nth_error_wr {A} (b l : list A) o i : o + length l <= length b ->
  nth_error (firstn o b ++ l ++ skipn (o + length l) b) i =
  if (o <=? i) && (i <? o + length l) then nth_error l (i - o) else nth_error b i.
Proof.
  intros H. destruct (Nat.leb_spec o i); cbn [andb].
  - rewrite nth_error_app2 by (rewrite firstn_length; lia). rewrite firstn_length. replace (min o (length b)) with o by lia.
    destruct (Nat.ltb_spec i (o + length l)).
    + rewrite nth_error_app1 by lia. reflexivity.
    + rewrite nth_error_app2 by lia. rewrite <- (firstn_skipn (o + length l) b) at 2.
      rewrite (nth_error_app2 (firstn _ _)) by (rewrite firstn_length; lia). rewrite firstn_length. f_equal. lia.
  - rewrite nth_error_app1 by (rewrite firstn_length; lia). rewrite <- (firstn_skipn o b) at 2.
    rewrite nth_error_app1 by (rewrite firstn_length; lia). reflexivity.
Qed.

(** A write changes the region. *)
Lemma wrmem_pts n m p l : fst p < n -> snd p + length l <= length (m (fst p)) ->
  pts n (wrmem m p l) p l /\ chg n m (wrmem m p l) [(p, length l)].
Proof.
  intros Hp Hl. unfold wrmem. split.
  - split; [exact Hp|]. intros i x Hx. unfold upd. rewrite Nat.eqb_refl. rewrite nth_error_wr by exact Hl.
    assert (i < length l) by (apply nth_error_Some; congruence).
    rewrite (proj2 (Nat.leb_le (snd p) (snd p + i))) by lia. rewrite (proj2 (Nat.ltb_lt (snd p + i) (snd p + length l))) by lia.
    cbn [andb]. rewrite <- Hx. f_equal. lia.
  - intros b Hb. unfold upd. destruct (Nat.eqb_spec b (fst p)) as [->|Hne]; [|auto]. split.
    + rewrite !app_length, firstn_length, skipn_length. lia.
    + intros i Hi. rewrite nth_error_wr by exact Hl. specialize (Hi p (length l) (or_introl eq_refl) eq_refl).
      destruct ((snd p <=? i) && (i <? snd p + length l)) eqn:Hc; [lia|reflexivity].
Qed.

(** Writing a part of a region. *)
Lemma wrmem_part n m p l o s : pts n m p l -> o + length s <= length l -> s <> [] ->
  let m' := wrmem m (fst p, snd p + o) s in
  pts n m' p (firstn o l ++ s ++ skipn (o + length s) l) /\ chg n m m' [(p, length l)] /\ chg n m m' [((fst p, snd p + o), length s)].
Proof.
  intros H Hl Hs. pose proof (pts_bound n m p l H) as Hb. assert (Hl0 : l <> []).
  { intros ->. destruct s; [congruence|]. cbn in Hl. lia. }
  specialize (Hb Hl0). destruct H as [Hp H]. cbv zeta.
  destruct (wrmem_pts n m (fst p, snd p + o) s) as [A B]; [exact Hp|cbn [fst snd]; lia|]. split; [|split].
  - split; [exact Hp|]. intros i x Hx. rewrite nth_error_wr in Hx by exact Hl.
    destruct ((o <=? i) && (i <? o + length s)) eqn:Hc.
    + destruct A as [_ A]. specialize (A _ _ Hx). cbn [fst snd] in A. rewrite <- A. f_equal. lia.
    + destruct (B (fst p) Hp) as [_ B']. rewrite B'.
      * apply H. exact Hx.
      * intros q k [E|[]] _. inversion E. cbn [fst snd]. lia.
  - apply (chg_sub _ _ _ _ _ p (length l) B); cbn [fst snd]; lia.
  - exact B.
Qed.

Lemma list_set_firstn {A} (l : list A) i x : i < length l -> firstn i l ++ [x] ++ skipn (i + 1) l = list_set l i x.
Proof.
  revert i; induction l as [|a l IH]; intros i H; [cbn in H; lia|]. destruct i as [|i]; [reflexivity|].
  cbn in H. cbn [firstn app skipn Nat.add list_set]. f_equal. rewrite <- IH by lia. reflexivity.
Qed.

(** ** Rules *)
Section R.
Variable U : nat -> nat -> bytes.

Definition runs (s : stmt) (st : state) (Q : state -> Prop) : Prop :=
  match run U s st with Some (st', _) => Q st' | None => False end.

Lemma runs_mono s st (Q Q' : state -> Prop) : runs s st Q -> (forall x, Q x -> Q' x) -> runs s st Q'.
Proof. unfold runs. destruct (run U s st) as [[x t]|]; auto. Qed.

Lemma runs_seq s1 s2 st Q : runs s1 st (fun x => runs s2 x Q) -> runs (Seq s1 s2) st Q.
Proof.
  unfold runs. cbn [run]. destruct (run U s1 st) as [[x t]|]; cbn [andthen]; [|auto]. destruct (run U s2 x) as [[y t']|]; auto.
Qed.

Lemma runs_skip st (Q : state -> Prop) : Q st -> runs Skip st Q.
Proof. auto. Qed.
Lemma runs_iset x e st (Q : state -> Prop) : Q (set_iv st (upd (iv st) x (ieval (iv st) e))) -> runs (ISet x e) st Q.
Proof. auto. Qed.
Lemma runs_dset x e st (Q : state -> Prop) : Q (set_dv st (upd (dv st) x (deval (iv st) (dv st) e))) -> runs (DSet x e) st Q.
Proof. auto. Qed.
Lemma runs_pset a l ps st (Q : state -> Prop) : pevals (iv st) (pv st) l = Some ps -> Q (set_pv st (upd (pv st) a ps)) -> runs (PSet a l) st Q.
Proof. unfold runs. cbn [run]. intros ->. auto. Qed.

Lemma runs_ld w x p q st (Q : state -> Prop) : peval (iv st) (pv st) p = Some q -> valid (mm st) w w q = true ->
  Q (set_dv st (upd (dv st) x (word_of (rdmem (mm st) q w)))) -> runs (Ld w x p) st Q.
Proof. unfold runs. cbn [run]. intros -> -> H. exact H. Qed.

Lemma runs_st w p q e st (Q : state -> Prop) : peval (iv st) (pv st) p = Some q -> valid (mm st) w w q = true ->
  Q (set_mm st (wrmem (mm st) q (bytes_of_word w (deval (iv st) (dv st) e)))) -> runs (St w p e) st Q.
Proof. unfold runs. cbn [run]. intros -> -> H. exact H. Qed.

Lemma runs_memcpy p q n d s st (Q : state -> Prop) : peval (iv st) (pv st) p = Some d -> peval (iv st) (pv st) q = Some s ->
  valid (mm st) (ieval (iv st) n) 1 d = true -> valid (mm st) (ieval (iv st) n) 1 s = true -> separate d s (ieval (iv st) n) = true ->
  Q (set_mm st (wrmem (mm st) d (rdmem (mm st) s (ieval (iv st) n)))) -> runs (MemCpy p q n) st Q.
Proof. unfold runs. cbn [run]. intros -> -> -> -> -> H. exact H. Qed.

Lemma runs_memset p b n d st (Q : state -> Prop) : peval (iv st) (pv st) p = Some d ->
  valid (mm st) (ieval (iv st) n) 1 d = true ->
  Q (set_mm st (wrmem (mm st) d (repeat b (ieval (iv st) n)))) -> runs (MemSet p b n) st Q.
Proof. unfold runs. cbn [run]. intros -> -> H. exact H. Qed.

Lemma runs_if c b s1 s2 st Q : ceval (iv st) (pv st) c = Some b -> runs (if b then s1 else s2) st Q -> runs (If c s1 s2) st Q.
Proof.
  unfold runs. cbn [run]. intros ->. destruct b.
  - destruct (run U s1 st) as [[y t]|]; auto.
  - destruct (run U s2 st) as [[y t]|]; auto.
Qed.

(** [I k]: after [k] rounds of the loop. *)
Lemma runs_for (I : nat -> state -> Prop) x lo hi step s st (Q : state -> Prop) :
  let n := (ieval (iv st) hi - ieval (iv st) lo + (step - 1)) / step in let i0 := ieval (iv st) lo in
  I 0 st -> (forall k y, k < n -> I k y -> runs s (set_iv y (upd (iv y) x (i0 + k * step))) (I (S k))) ->
  (forall y, I n y -> Q y) -> runs (For x lo hi step s) st Q.
Proof.
  cbv zeta. unfold runs at 2. cbn [run]. set (n := (_ - _ + _) / _). set (i0 := ieval (iv st) lo).
  intros H0 Hs HQ. set (f := fun i st0 => run U s (set_iv st0 (upd (iv st0) x i))).
  assert (H : forall k j y, j + k = n -> I j y -> match loop f k (i0 + j * step) step y with Some (z, _) => I n z | None => False end).
  { induction k as [|k IH]; intros j y Hj Hy.
    - cbn [loop]. replace n with j by lia. exact Hy.
    - cbn [loop]. specialize (Hs j y ltac:(lia) Hy). unfold runs in Hs. fold (f (i0 + j * step) y) in Hs.
      destruct (f (i0 + j * step) y) as [[z t]|]; [|contradiction]. cbn [andthen].
      specialize (IH (S j) z ltac:(lia) Hs). replace (i0 + j * step + step) with (i0 + S j * step) by lia.
      destruct (loop f k (i0 + S j * step) step z) as [[w t']|]; cbn [emit]; auto. }
  specialize (H n 0 st ltac:(lia) H0). replace (i0 + 0 * step) with i0 in H by lia.
  destruct (loop f n i0 step st) as [[z t]|]; cbn [emit]; auto.
Qed.

Lemma runs_loc a n s st (Q : state -> Prop) :
  runs s (mkState (iv st) (dv st) (upd (pv st) a [(nx st, 0)]) (upd (mm st) (nx st) (U (ct st) (ieval (iv st) n))) (S (nx st)) (S (ct st)))
    (fun y => Q (mkState (iv y) (dv y) (upd (pv y) a (pv st a)) (upd (mm y) (nx st) []) (nx st) (ct y))) -> runs (Loc a n s) st Q.
Proof. unfold runs. cbn [run]. destruct (run U s _) as [[y t]|]; auto. Qed.

Lemma runs_call s ia da pa ir dr ps st (Q : state -> Prop) : pargevals (iv st) (pv st) pa = Some ps ->
  runs s (mkState (args 0 (map (ieval (iv st)) ia)) (args 0%N (map (deval (iv st) (dv st)) da)) (args [] ps) (mm st) (nx st) (ct st))
    (fun y => Q (mkState (copy_back ir (iv y) (iv st)) (copy_back dr (dv y) (dv st)) (pv st) (mm y) (nx y) (ct y))) ->
  runs (Call s ia da pa ir dr) st Q.
Proof. unfold runs. cbn [run]. intros ->. destruct (run U s _) as [[y t]|]; auto. Qed.
End R.

(** Local arrays are outside all regions in use before. *)
Lemma pts_new n m p l b : pts n m p l -> pts (S n) (upd m n b) p l.
Proof. intros [A B]. split; [lia|]. intros i x Hx. unfold upd. rewrite (proj2 (Nat.eqb_neq (fst p) n)) by lia. auto. Qed.
Lemma pts_local n m b : pts (S n) (upd m n b) (n, 0) b.
Proof. split; [cbn; lia|]. intros i x Hx. unfold upd. cbn [fst snd]. rewrite Nat.eqb_refl. exact Hx. Qed.
Lemma pts_drop n m p l : pts (S n) m p l -> fst p < n -> pts n (upd m n []) p l.
Proof. intros [A B] H. split; [lia|]. intros i x Hx. unfold upd. rewrite (proj2 (Nat.eqb_neq (fst p) n)) by lia. auto. Qed.
Lemma chg_local n m m' b rs rs' : chg (S n) (upd m n b) m' rs -> (forall x, In x rs -> fst (fst x) < n -> In x rs') ->
  chg n m (upd m' n []) rs'.
Proof.
  intros H Hr k Hk. destruct (H k ltac:(lia)) as [A B]. unfold upd in *. rewrite (proj2 (Nat.eqb_neq k n)) in * by lia.
  split; [exact A|]. intros i Hi. apply B. intros p j Hp Hkp. apply (Hi p j); [|exact Hkp]. apply Hr; [exact Hp|cbn; lia].
Qed.

(** Simplification of states and expressions. *)
Ltac csimpl := cbn [iv dv pv mm nx ct set_iv set_dv set_pv set_mm ieval deval dop_eval peval pevals pargeval pargevals ceval
  elem P0 dxor dand dor upd Nat.eqb args nth nth_error map copy_back fst snd].
Ltac csimpl_in H := cbn [iv dv pv mm nx ct set_iv set_dv set_pv set_mm ieval deval dop_eval peval pevals pargeval pargevals ceval
  elem P0 dxor dand dor upd Nat.eqb args nth nth_error map copy_back fst snd] in H.

(** Equality of computed addresses. *)
Lemma some_ptr (b o o' : nat) : o = o' -> Some (b, o) = Some (b, o').
Proof. intros ->. reflexivity. Qed.
Ltac peq := solve [reflexivity | apply some_ptr; lia].
