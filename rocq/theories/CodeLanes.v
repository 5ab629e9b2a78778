(** Running programs on arrays of 64-bit lanes: an interpreter that computes with lists of lanes, and its agreement with
    the runs on memory. *)

From Coq Require Import List NArith Arith Bool Lia ZifyBool ZifyNat ZifyN.
From Verif Require Import Base Spec MiniC CodeSpec BaseFacts MiniCFacts CodeRules CodeLowMCProofs CodeHeap KeccakPerm.
Import ListNotations.

(** Pointers: region and byte offset in it. *)
Record lstate : Type := mkL { liv : nat -> nat; ldv : nat -> N; lpv : nat -> list (nat * nat); lmem : list (list N); lct : nat }.

Definition lset_dv a f := mkL (liv a) f (lpv a) (lmem a) (lct a).
Definition lset_iv a f := mkL f (ldv a) (lpv a) (lmem a) (lct a).
Definition lset_mem a m := mkL (liv a) (ldv a) (lpv a) m (lct a).

(** Expressions whose value stays below 2^64. *)
Fixpoint small (e : dexp) : bool :=
  match e with
  | DC n => N.ltb n (2 ^ 64) | DV _ => true
  | DOp _ a b => small a && small b
  | DShr a _ => small a | DShlL a _ => small a
  | DNot w a => (w =? 8) && small a
  | _ => false
  end.
Fixpoint ldeval (f : nat -> nat) (g : nat -> N) (e : dexp) : N :=
  match e with
  | DC n => n | DV x => g x
  | DOp o a b => dop_eval o (ldeval f g a) (ldeval f g b)
  | DShr a k => N.shiftr (ldeval f g a) (N.of_nat (ieval f k))
  | DShlL a k => N.modulo (N.shiftl (ldeval f g a) (N.of_nat (ieval f k))) (2 ^ 64)
  | DNot _ a => N.lnot (ldeval f g a) 64
  | _ => 0%N
  end.

Definition laddr (a : lstate) (p : pexp) : option (nat * nat) :=
  match peval (liv a) (lpv a) p with
  | Some (r, o) => if (o mod 8 =? 0) && (r <? length (lmem a)) && (o / 8 <? length (nth r (lmem a) [])) then Some (r, o / 8) else None
  | None => None
  end.

Section Run.
(** Contents of local arrays: number of the array, size in bytes, lane. *)
Variable G : nat -> nat -> nat -> N.

Fixpoint lloop (f : nat -> lstate -> option lstate) (n i : nat) (a : lstate) : option lstate :=
  match n with O => Some a | S n' => match f i a with Some b => lloop f n' (i + 1) b | None => None end end.

Fixpoint lrun (s : stmt) (a : lstate) {struct s} : option lstate :=
  match s with
  | Skip => Some a
  | Seq s1 s2 => match lrun s1 a with Some b => lrun s2 b | None => None end
  | DSet x e => if small e then Some (lset_dv a (upd (ldv a) x (ldeval (liv a) (ldv a) e))) else None
  | Ld 8 x p => match laddr a p with Some (r, j) => Some (lset_dv a (upd (ldv a) x (nth j (nth r (lmem a) []) 0%N))) | None => None end
  | St 8 p e =>
      match laddr a p with
      | Some (r, j) => if small e then Some (lset_mem a (list_set (lmem a) r (list_set (nth r (lmem a) []) j (ldeval (liv a) (ldv a) e)))) else None
      | None => None
      end
  | For x lo hi 1 s => lloop (fun i a => lrun s (lset_iv a (upd (liv a) x i))) (ieval (liv a) hi - ieval (liv a) lo) (ieval (liv a) lo) a
  | If c s1 s2 => match c with
                  | CEq u v => if ieval (liv a) u =? ieval (liv a) v then lrun s1 a else lrun s2 a
                  | _ => None
                  end
  | Loc p n s =>
      let k := ieval (liv a) n in
      if k mod 8 =? 0 then
        match lrun s (mkL (liv a) (ldv a) (upd (lpv a) p [(length (lmem a), 0)]) (lmem a ++ [map (G (lct a) k) (seq 0 (k / 8))]) (S (lct a))) with
        | Some b => Some (mkL (liv b) (ldv b) (upd (lpv b) p (lpv a p)) (firstn (length (lmem a)) (lmem b)) (lct b))
        | None => None
        end
      else None
  | Call s ia [] pa [] [] =>
      match pargevals (liv a) (lpv a) pa with
      | Some ps =>
          match lrun s (mkL (args 0 (map (ieval (liv a)) ia)) (args 0%N []) (args [] ps) (lmem a) (lct a)) with
          | Some b => Some (mkL (liv a) (ldv a) (lpv a) (lmem b) (lct b))
          | None => None
          end
      | None => None
      end
  | _ => None
  end.
End Run.

(** ** Lanes as bytes *)
Definition lb (A : list N) : bytes := flat_map (bytes_of_word 8) A.
Definition lanes_ok (A : list N) : Prop := Forall (fun a => (a < 2 ^ 64)%N) A.
(** Lane [j] of bytes. *)
Definition lane_of (l : bytes) (j : nat) : N := word_of (firstn 8 (skipn (8 * j) l)).

Lemma word_of_bytes_of_word w : forall d, word_of (bytes_of_word w d) = N.modulo d (wmod w).
Proof.
  induction w as [|w IH]; intros d; cbn [bytes_of_word word_of]; [symmetry; apply N.mod_1_r|]. rewrite IH. unfold wmod.
  replace (2 ^ (8 * N.of_nat (S w)))%N with (256 * 2 ^ (8 * N.of_nat w))%N.
  2:{ replace (8 * N.of_nat (S w))%N with (8 + 8 * N.of_nat w)%N by lia. rewrite N.pow_add_r. reflexivity. }
  rewrite N.mod_mul_r; [reflexivity|discriminate|apply N.pow_nonzero; discriminate].
Qed.

Lemma bytes_of_word_ok w : forall d, bytes_ok (bytes_of_word w d).
Proof. induction w as [|w IH]; intros d; cbn [bytes_of_word]; constructor; [apply N.mod_lt; discriminate|apply IH]. Qed.

Lemma length_lb A : length (lb A) = 8 * length A.
Proof. apply length_flat_map_const. intros a. apply length_bytes_of_word. Qed.
Lemma lb_ok A : bytes_ok (lb A).
Proof. induction A as [|a A IH]; cbn [lb flat_map]; [constructor|]. apply Forall_app. split; [apply bytes_of_word_ok|exact IH]. Qed.
Lemma lb_cons a A : lb (a :: A) = bytes_of_word 8 a ++ lb A.
Proof. reflexivity. Qed.

Lemma skipn_lb A : forall j, skipn (8 * j) (lb A) = lb (skipn j A).
Proof.
  induction A as [|a A IH]; intros j; [cbn [lb flat_map]; rewrite !skipn_nil; reflexivity|]. destruct j as [|j]; [reflexivity|].
  rewrite lb_cons. replace (8 * S j) with (length (bytes_of_word 8 a) + 8 * j) by (rewrite length_bytes_of_word; lia).
  rewrite skipn_app, skipn_all2 by lia. rewrite Nat.add_comm, Nat.add_sub. cbn [app]. apply IH.
Qed.
Lemma firstn_lb A : forall j, firstn (8 * j) (lb A) = lb (firstn j A).
Proof.
  induction A as [|a A IH]; intros j; [cbn [lb flat_map]; rewrite !firstn_nil; reflexivity|]. destruct j as [|j]; [reflexivity|].
  rewrite lb_cons. replace (8 * S j) with (length (bytes_of_word 8 a) + 8 * j) by (rewrite length_bytes_of_word; lia).
  rewrite firstn_app_2, IH. reflexivity.
Qed.

Lemma nth_skipn_cons {A} (l : list A) j d : j < length l -> skipn j l = nth j l d :: skipn (S j) l.
Proof. revert j. induction l as [|x l IH]; intros j H; cbn in H; [lia|]. destruct j as [|j]; [reflexivity|]. cbn [skipn nth]. rewrite IH by lia. reflexivity. Qed.

Lemma lane_lb A j : j < length A -> lanes_ok A -> lane_of (lb A) j = nth j A 0%N.
Proof.
  intros Hj HA. unfold lane_of. rewrite skipn_lb. rewrite (nth_skipn_cons A j 0%N) by exact Hj. rewrite lb_cons.
  rewrite firstn_app, length_bytes_of_word, Nat.sub_diag, firstn_O, app_nil_r, firstn_all2 by (rewrite length_bytes_of_word; lia).
  rewrite word_of_bytes_of_word. apply N.mod_small. unfold lanes_ok in HA. rewrite Forall_forall in HA. apply (HA (nth j A 0%N)). apply nth_In, Hj.
Qed.

Lemma lb_set A j v : j < length A -> firstn (8 * j) (lb A) ++ bytes_of_word 8 v ++ skipn (8 * j + 8) (lb A) = lb (list_set A j v).
Proof.
  intros Hj. rewrite <- (list_set_firstn A j v Hj). replace (8 * j + 8) with (8 * (j + 1)) by lia. rewrite skipn_lb, firstn_lb. unfold lb. rewrite !flat_map_app. reflexivity.
Qed.

Lemma lb_lanes l k : length l = 8 * k -> bytes_ok l -> lb (map (lane_of l) (seq 0 k)) = l.
Proof.
  revert l. induction k as [|k IH]; intros l Hl Hb; [destruct l; [reflexivity|discriminate]|].
  cbn [seq map]. rewrite lb_cons. unfold lane_of at 1. rewrite Nat.mul_0_r. cbn [skipn].
  rewrite <- (firstn_length_le l (n := 8)) at 1 by lia. rewrite bytes_of_word_of by (apply Forall_firstn, Hb).
  rewrite <- seq_shift, map_map. transitivity (firstn 8 l ++ skipn 8 l); [|apply firstn_skipn]. f_equal.
  transitivity (lb (map (lane_of (skipn 8 l)) (seq 0 k))); [|apply IH; [rewrite skipn_length; lia|apply Forall_skipn, Hb]]. f_equal. apply map_ext. intros j. unfold lane_of.
  rewrite <- skipn_add. do 3 f_equal. lia.
Qed.
Lemma lane_lt l j : bytes_ok l -> (lane_of l j < 2 ^ 64)%N.
Proof.
  intros Hb. unfold lane_of. assert (X : forall w x, bytes_ok x -> length x <= w -> (word_of x < wmod w)%N).
  { induction w as [|w IH]; intros x Hx Hl; destruct x as [|y x]; cbn [length] in Hl; try lia; try (cbn [word_of]; unfold wmod; apply N.neq_0_lt_0, N.pow_nonzero; discriminate).
    cbn [word_of]. inversion Hx as [|? ? Hy Hx']. subst. specialize (IH x Hx' ltac:(lia)). unfold wmod in *.
    replace (8 * N.of_nat (S w))%N with (8 + 8 * N.of_nat w)%N by lia. rewrite N.pow_add_r. change (2 ^ 8)%N with 256%N. unfold byte in Hy. nia. }
  apply (X 8 _); [apply Forall_firstn, Forall_skipn, Hb|]. rewrite firstn_length. lia.
Qed.

(** ** Small values *)
Lemma land_lt2 a b : (a < 2 ^ 64)%N -> (b < 2 ^ 64)%N -> (N.land a b < 2 ^ 64)%N.
Proof. intros _ H. apply land_lt, H. Qed.
Lemma lor_lt a b : (a < 2 ^ 64)%N -> (b < 2 ^ 64)%N -> (N.lor a b < 2 ^ 64)%N.
Proof. intros Ha Hb. apply testbit_low_lt. intros z Hz. rewrite N.lor_spec, (testbit_high a 64), (testbit_high b 64) by auto. reflexivity. Qed.
Lemma shiftr_lt a k : (a < 2 ^ 64)%N -> (N.shiftr a k < 2 ^ 64)%N.
Proof. intros Ha. apply testbit_low_lt. intros z Hz. rewrite N.shiftr_spec by lia. apply (testbit_high a 64); [exact Ha|lia]. Qed.
Lemma lnot_lt a : (a < 2 ^ 64)%N -> (N.lnot a 64 < 2 ^ 64)%N.
Proof. intros Ha. unfold N.lnot. apply lxor_lt; [exact Ha|reflexivity]. Qed.

Lemma ldeval_ok f g e : small e = true -> (forall x, (g x < 2 ^ 64)%N) -> deval f g e = ldeval f g e /\ (ldeval f g e < 2 ^ 64)%N.
Proof.
  intros He Hg. induction e as [n|x|o a IHa b IHb|a IHa k|a IHa k|a IHa k|a IHa b IHb|w a IHa|w a IHa]; cbn [small] in He; try discriminate; cbn [deval ldeval].
  - split; [reflexivity|]. apply N.ltb_lt, He.
  - auto.
  - apply andb_true_iff in He. destruct (IHa (proj1 He)) as [-> A], (IHb (proj2 He)) as [-> B]. split; [reflexivity|].
    destruct o; cbn [dop_eval]; [apply land_lt2|apply lor_lt|apply lxor_lt]; auto.
  - destruct (IHa He) as [-> A]. split; [reflexivity|apply shiftr_lt, A].
  - destruct (IHa He) as [-> A]. split; [reflexivity|apply N.mod_lt; discriminate].
  - apply andb_true_iff in He. destruct He as [Hw He]. apply Nat.eqb_eq in Hw. subst w. destruct (IHa He) as [-> A].
    split; [|apply lnot_lt, A]. change (wmod 8) with (2 ^ 64)%N. rewrite N.mod_small by exact A. reflexivity.
Qed.

(** ** Agreement *)
Lemma lloop_pres (R : lstate -> lstate -> Prop) f : (forall a, R a a) -> (forall a b c, R a b -> R b c -> R a c) -> (forall i a b, f i a = Some b -> R a b) ->
  forall n i a b, lloop f n i a = Some b -> R a b.
Proof.
  intros H1 H2 H3. induction n as [|n IH]; intros i a b H; cbn [lloop] in H; [injection H as <-; apply H1|].
  destruct (f i a) as [c|] eqn:E; [|discriminate]. apply (H2 a c b); [apply (H3 i), E|apply (IH _ _ _ H)].
Qed.

Definition same_shape (a b : lstate) : Prop := (forall x, lpv b x = lpv a x) /\ length (lmem b) = length (lmem a).
Lemma shape_trans a b c : same_shape a b -> same_shape b c -> same_shape a c.
Proof. intros [A1 A2] [B1 B2]. split; [intros x; rewrite B1; apply A1|congruence]. Qed.

Ltac only8 w H := do 9 (destruct w as [|w]; try discriminate H).
Ltac only1 w H := destruct w as [|[|w]]; try discriminate H.

Lemma lrun_shape G s : forall a b, lrun G s a = Some b -> same_shape a b.
Proof.
  induction s as [|s1 IH1 s2 IH2|x e|x e|x l|w x p|w p e|p q n|p c n|x lo hi step s IH|c s1 IH1 s2 IH2|x n s IH|s IH ia da pa ir dr|e s1 IH1 s2 IH2|x e];
    intros a b H; cbn [lrun] in H; try discriminate.
  - injection H as <-. split; auto.
  - destruct (lrun G s1 a) as [c|] eqn:E; [|discriminate]. apply (shape_trans a c b); auto.
  - destruct (small e); [|discriminate]. injection H as <-. split; auto.
  - only8 w H. destruct (laddr a p) as [[r j]|]; [|discriminate]. injection H as <-. split; auto.
  - only8 w H. destruct (laddr a p) as [[r j]|]; [|discriminate]. destruct (small e); [|discriminate]. injection H as <-. split; [auto|]. cbn [lmem lset_mem]. apply length_list_set.
  - only1 step H. revert H. apply lloop_pres; [split; auto|apply shape_trans|]. intros i u v E. specialize (IH _ _ E). exact IH.
  - destruct c as [u v| |]; try discriminate. destruct (_ =? _); auto.
  - destruct (_ =? _); [|discriminate]. destruct (lrun G s _) as [c|] eqn:E; [|discriminate]. injection H as <-. apply IH in E. destruct E as [E1 E2]. cbn [lpv lmem] in *. split; cbn [lpv lmem].
    + intros y. unfold upd in *. destruct (Nat.eqb_spec y x) as [->|Hne]; [reflexivity|]. rewrite E1. rewrite (proj2 (Nat.eqb_neq y x) Hne). reflexivity.
    + rewrite firstn_length, E2, app_length. cbn [length]. lia.
  - destruct da; [|discriminate]. destruct ir; [|discriminate]. destruct dr; [|discriminate]. destruct (pargevals _ _ pa) as [ps|]; [|discriminate].
    destruct (lrun G s _) as [c|] eqn:E; [|discriminate]. injection H as <-. apply IH in E. split; [reflexivity|]. exact (proj2 E).
Qed.

Definition conc (L : layout) (p : nat * nat) : ptr := (fst (reg L (fst p)), snd (reg L (fst p)) + snd p).

Section A.
Variables (U : nat -> nat -> bytes) (n0 : nat) (m0 : memory).
Hypothesis HU : locals_ok U.
Notation heap := (heap n0 m0).
Definition locG (c n j : nat) : N := lane_of (U c n) j.

Record lrep (L : layout) (st : state) (a : lstate) : Prop := {
  lr_iv : iv st = liv a;
  lr_dv : dv st = ldv a;
  lr_pv : forall x, pv st x = map (conc L) (lpv a x);
  lr_wf : forall x, Forall (fun p => fst p < cnt L) (lpv a x);
  lr_cnt : length (lmem a) = cnt L;
  lr_al : forall k, k < cnt L -> snd (reg L k) mod 8 = 0;
  lr_small : forall x, (ldv a x < 2 ^ 64)%N;
  lr_lanes : forall k, lanes_ok (nth k (lmem a) []);
  lr_ct : ct st = lct a;
  lr_heap : heap L (nx st) (mm st) (fun k => lb (nth k (lmem a) []))
}.

Lemma peval_conc L f h h' (E : forall x, h' x = map (conc L) (h x)) (W : forall x, Forall (fun p => fst p < cnt L) (h x)) p :
  forall r o, peval f h p = Some (r, o) -> peval f h' p = Some (conc L (r, o)) /\ r < cnt L.
Proof.
  induction p as [x i|p IH k]; intros r o H; cbn [peval] in *.
  - rewrite E. split; [apply map_nth_error, H|]. specialize (W x). rewrite Forall_forall in W. apply nth_error_In in H. apply (W _ H).
  - destruct (peval f h p) as [[r' o']|]; [|discriminate]. injection H as <- <-. destruct (IH _ _ eq_refl) as [-> B]. split; [|exact B]. unfold conc. cbn [fst snd]. rewrite Nat.add_assoc. reflexivity.
Qed.
Lemma pevals_conc L f h h' (E : forall x, h' x = map (conc L) (h x)) (W : forall x, Forall (fun p => fst p < cnt L) (h x)) l :
  forall ps, pevals f h l = Some ps -> pevals f h' l = Some (map (conc L) ps) /\ Forall (fun p => fst p < cnt L) ps.
Proof.
  induction l as [|e l IH]; intros ps H; cbn [pevals] in *; [injection H as <-; auto|].
  destruct (peval f h e) as [[r o]|] eqn:Ee; [|discriminate]. destruct (pevals f h l) as [qs|]; [|discriminate]. injection H as <-.
  destruct (peval_conc L f h h' E W e r o Ee) as [-> B]. destruct (IH qs eq_refl) as [-> F]. split; [reflexivity|]. constructor; auto.
Qed.
Lemma pargevals_conc L f h h' (E : forall x, h' x = map (conc L) (h x)) (W : forall x, Forall (fun p => fst p < cnt L) (h x)) l :
  forall ps, pargevals f h l = Some ps -> pargevals f h' l = Some (map (map (conc L)) ps) /\ Forall (Forall (fun p => fst p < cnt L)) ps.
Proof.
  induction l as [|e l IH]; intros ps H; cbn [pargevals] in *; [injection H as <-; auto|].
  destruct (pargeval f h e) as [q|] eqn:Ee; [|discriminate]. destruct (pargevals f h l) as [qs|]; [|discriminate]. injection H as <-.
  assert (X : pargeval f h' e = Some (map (conc L) q) /\ Forall (fun p => fst p < cnt L) q).
  { destruct e as [x|le]; cbn [pargeval] in *; [injection Ee as <-; rewrite E; auto|apply (pevals_conc L f h h' E W le), Ee]. }
  destruct X as [-> B]. destruct (IH qs eq_refl) as [-> F]. split; [reflexivity|]. constructor; auto.
Qed.
Lemma args_map {A B} (g : A -> B) l d k : args (g d) (map g l) k = g (args d l k).
Proof. unfold args. apply map_nth. Qed.

(** The address of a lane. *)
Lemma laddr_ok L st a p r j : lrep L st a -> laddr a p = Some (r, j) ->
  r < cnt L /\ j < length (nth r (lmem a) []) /\ peval (iv st) (pv st) p = Some (fst (reg L r), snd (reg L r) + 8 * j) /\
  valid (mm st) 8 8 (fst (reg L r), snd (reg L r) + 8 * j) = true.
Proof.
  intros H A. unfold laddr in A. destruct (peval (liv a) (lpv a) p) as [[r' o]|] eqn:E; [|discriminate].
  destruct ((o mod 8 =? 0) && (r' <? length (lmem a)) && (o / 8 <? length (nth r' (lmem a) []))) eqn:C; [|discriminate]. injection A as -> <-.
  apply andb_true_iff in C. destruct C as [C C3]. apply andb_true_iff in C. destruct C as [C1 C2]. apply Nat.eqb_eq in C1. apply Nat.ltb_lt in C2, C3.
  destruct (peval_conc L _ _ _ (lr_pv _ _ _ H) (lr_wf _ _ _ H) p r o E) as [Ep Hr]. rewrite (lr_iv _ _ _ H), Ep. unfold conc. cbn [fst snd].
  assert (Eo : o = 8 * (o / 8)) by (pose proof (Nat.div_mod o 8 ltac:(lia)); lia). rewrite <- Eo.
  split; [exact Hr|]. split; [exact C3|]. split; [reflexivity|].
  pose proof (lr_heap _ _ _ H) as HH. pose proof (heap_pts _ _ _ _ _ _ HH r Hr) as HP. cbv beta in HP.
  pose proof (pts_bound _ _ _ _ HP) as Hb. rewrite length_lb in Hb.
  assert (lb (nth r (lmem a) []) <> []) by (intros X; apply (f_equal (@length N)) in X; rewrite length_lb in X; cbn in X; lia). specialize (Hb H0).
  unfold valid. cbn [fst snd]. apply andb_true_iff. split; [apply Nat.leb_le; lia|]. apply Nat.eqb_eq.
  rewrite Nat.add_mod, (lr_al _ _ _ H r Hr), C1 by lia. reflexivity.
Qed.

Lemma lanes_set A j v : lanes_ok A -> (v < 2 ^ 64)%N -> lanes_ok (list_set A j v).
Proof.
  unfold lanes_ok. intros HA Hv. revert j. induction HA as [|x A Hx HA IH]; intros j; destruct j as [|j]; cbn [list_set]; constructor; auto.
Qed.

Lemma loop_ok L f x s st0 : (forall i a b st, f i a = Some b -> lrep L st a -> runs U s (set_iv st (upd (iv st) x i)) (fun y => lrep L y b /\ nx y = nx st)) ->
  forall n i a b st, lloop f n i a = Some b -> lrep L st a -> nx st = nx st0 ->
  match loop (fun i st => run U s (set_iv st (upd (iv st) x i))) n i 1 st with Some (y, _) => lrep L y b /\ nx y = nx st0 | None => False end.
Proof.
  intros Hf. induction n as [|n IH]; intros i a b st H HR Hn; cbn [lloop loop] in *; [injection H as <-; auto|].
  destruct (f i a) as [c|] eqn:E; [|discriminate]. specialize (Hf i a c st E HR). unfold runs in Hf.
  destruct (run U s (set_iv st (upd (iv st) x i))) as [[y t]|]; [|contradiction]. destruct Hf as [Hy Ny]. cbn [andthen]. rewrite Nat.add_1_r in *.
  specialize (IH (i + 1) c b y). rewrite Nat.add_1_r in IH. specialize (IH H Hy ltac:(congruence)).
  destruct (loop _ n (S i) 1 y) as [[z t']|]; cbn [emit]; auto.
Qed.

Theorem lrun_ok s : forall L st a b, lrun locG s a = Some b -> lrep L st a -> runs U s st (fun y => lrep L y b /\ nx y = nx st).
Proof.
  induction s as [|s1 IH1 s2 IH2|x e|x e|x l|w x p|w p e|p q n|p c n|x lo hi step s IH|c s1 IH1 s2 IH2|x n s IH|s IH ia da pa ir dr|e s1 IH1 s2 IH2|x e];
    intros L st a b H HR; cbn [lrun] in H; try discriminate.
  - injection H as <-. apply runs_skip. auto.
  - destruct (lrun locG s1 a) as [c|] eqn:E; [|discriminate]. apply runs_seq. eapply runs_mono; [apply (IH1 L st a c E HR)|]. intros y [Hy Ny]. cbv beta.
    eapply runs_mono; [apply (IH2 L y c b H Hy)|]. intros z [Hz Nz]. split; [exact Hz|congruence].
  - destruct (small e) eqn:Se; [|discriminate]. injection H as <-. apply runs_dset. split; [|reflexivity].
    rewrite (lr_iv _ _ _ HR), (lr_dv _ _ _ HR). destruct (ldeval_ok (liv a) (ldv a) e Se (lr_small _ _ _ HR)) as [-> Hv]. destruct HR.
    split; cbn [iv dv pv mm nx ct set_dv liv ldv lpv lmem lct lset_dv]; auto. intros y. unfold upd. destruct (y =? x); auto.
  - only8 w H. destruct (laddr a p) as [[r j]|] eqn:A; [|discriminate]. injection H as <-. destruct (laddr_ok L st a p r j HR A) as (Hr & Hj & Ep & Hv).
    eapply runs_ld; [exact Ep|exact Hv|]. split; [|reflexivity].
    assert (V : word_of (rdmem (mm st) (fst (reg L r), snd (reg L r) + 8 * j) 8) = nth j (nth r (lmem a) []) 0%N).
    { pose proof (heap_pts _ _ _ _ _ _ (lr_heap _ _ _ HR) r Hr) as HP. cbv beta in HP.
      pose proof (pts_sub _ _ _ _ (8 * j) 8 HP ltac:(rewrite length_lb; lia)) as HS. rewrite (rdmem_pts _ _ _ _ 8 HS) by (rewrite firstn_length, skipn_length, length_lb; lia).
      rewrite firstn_firstn, Nat.min_id. apply (lane_lb (nth r (lmem a) []) j Hj). apply (lr_lanes _ _ _ HR). }
    rewrite V. assert (Vs : (nth j (nth r (lmem a) []) 0 < 2 ^ 64)%N). { pose proof (lr_lanes _ _ _ HR r) as X. unfold lanes_ok in X. rewrite Forall_forall in X. apply X, nth_In, Hj. }
    pose proof (lr_dv _ _ _ HR) as Ed. destruct HR. split; cbn [iv dv pv mm nx ct set_dv liv ldv lpv lmem lct lset_dv]; auto; [rewrite Ed; reflexivity|].
    intros y. unfold upd. destruct (y =? x); auto.
  - only8 w H. destruct (laddr a p) as [[r j]|] eqn:A; [|discriminate]. destruct (small e) eqn:Se; [|discriminate]. injection H as <-. destruct (laddr_ok L st a p r j HR A) as (Hr & Hj & Ep & Hv).
    eapply runs_st; [exact Ep|exact Hv|]. split; [|reflexivity].
    rewrite (lr_iv _ _ _ HR), (lr_dv _ _ _ HR). destruct (ldeval_ok (liv a) (ldv a) e Se (lr_small _ _ _ HR)) as [-> Hs]. set (v := ldeval (liv a) (ldv a) e) in *.
    pose proof (lr_heap _ _ _ HR) as HH. pose proof (heap_pts _ _ _ _ _ _ HH r Hr) as HP. cbv beta in HP. pose proof (heap_len _ _ _ _ _ _ HH r Hr) as HL. cbv beta in HL. rewrite length_lb in HL.
    destruct (wrmem_part _ _ _ _ (8 * j) (bytes_of_word 8 v) HP) as (W1 & W2 & _); [rewrite length_bytes_of_word, length_lb; lia|discriminate|].
    rewrite length_bytes_of_word in W1. rewrite (lb_set _ j v Hj) in W1. rewrite length_lb, HL in W2.
    pose proof (heap_write _ _ _ _ _ _ r _ _ HH Hr W1 ltac:(rewrite length_lb, length_list_set; exact HL) (lb_ok _) W2) as HW.
    pose proof (lr_cnt _ _ _ HR) as Hc. destruct HR. split; cbn [iv dv pv mm nx ct set_mm liv ldv lpv lmem lct lset_mem]; auto.
    + rewrite length_list_set. exact Hc.
    + intros k. rewrite nth_list_set by lia. destruct (k =? r); [apply lanes_set; auto|auto].
    + apply (heap_ext _ _ _ _ _ _ _ HW). intros k Hk. rewrite nth_list_set by lia. unfold cset. destruct (k =? r); reflexivity.
  - only1 step H. unfold runs. cbn [run]. rewrite (lr_iv _ _ _ HR). rewrite Nat.sub_diag, Nat.add_0_r, Nat.div_1_r.
    pose proof (loop_ok L (fun i a => lrun locG s (lset_iv a (upd (liv a) x i))) x s st) as LO.
    assert (X : forall i a b st, lrun locG s (lset_iv a (upd (liv a) x i)) = Some b -> lrep L st a -> runs U s (set_iv st (upd (iv st) x i)) (fun y => lrep L y b /\ nx y = nx st)).
    { intros i u v z E Hz. apply (IH L (set_iv z (upd (iv z) x i)) _ v E). pose proof (lr_iv _ _ _ Hz) as Ei. destruct Hz. split; cbn [iv dv pv mm nx ct set_iv liv ldv lpv lmem lct lset_iv]; auto. rewrite Ei. reflexivity. }
    specialize (LO X _ _ _ _ st H HR eq_refl). destruct (loop _ _ _ 1 st) as [[y t]|]; cbn [emit]; auto.
  - destruct c as [u v| |]; try discriminate. eapply runs_if; [cbn [ceval]; reflexivity|]. rewrite (lr_iv _ _ _ HR). destruct (_ =? _); [apply (IH1 L st a b H HR)|apply (IH2 L st a b H HR)].
  - destruct (Nat.eqb_spec (ieval (liv a) n mod 8) 0) as [Hk|]; [|discriminate]. set (k := ieval (liv a) n) in *.
    destruct (lrun locG s _) as [c|] eqn:E; [|discriminate]. injection H as <-. pose proof (lrun_shape _ _ _ _ E) as [S1 S2]. cbn [lpv lmem] in S1, S2.
    apply runs_loc. rewrite (lr_iv _ _ _ HR), (lr_ct _ _ _ HR). fold k. destruct (HU (lct a) k) as [Lk Bk]. set (L' := push L (nx st, 0) k).
    pose proof (lr_cnt _ _ _ HR) as Hc. assert (Ek : k = 8 * (k / 8)) by (pose proof (Nat.div_mod k 8 ltac:(lia)); lia).
    assert (Elb : lb (map (locG (lct a) k) (seq 0 (k / 8))) = U (lct a) k) by (apply lb_lanes; [congruence|exact Bk]).
    eapply runs_mono; [apply (IH L' _ _ c E)|].
    + pose proof (lr_iv _ _ _ HR) as Ei. pose proof (lr_dv _ _ _ HR) as Ed. pose proof (lr_pv _ _ _ HR) as Epv. pose proof (lr_wf _ _ _ HR) as Ew. pose proof (lr_al _ _ _ HR) as Ea.
      pose proof (heap_push n0 m0 L (nx st) (mm st) _ (U (lct a) k) (lr_heap _ _ _ HR) Bk) as HPu. rewrite Lk in HPu.
      split; cbn [iv dv pv mm nx ct liv ldv lpv lmem lct].
      * reflexivity.
      * exact Ed.
      * intros y. unfold upd. destruct (Nat.eqb_spec y x) as [->|Hne]; [cbn [map]; unfold conc, L'; cbn [fst snd reg push]; rewrite Hc, upd_eq; reflexivity|].
        rewrite Epv. apply map_ext_in. intros [r o] Hin. specialize (Ew y). rewrite Forall_forall in Ew. specialize (Ew _ Hin). cbn [fst] in Ew. unfold conc, L'. cbn [fst snd reg push]. rewrite upd_neq by lia. reflexivity.
      * intros y. unfold upd, L'. cbn [cnt push]. destruct (y =? x); [constructor; [cbn [fst]; lia|constructor]|]. eapply Forall_impl; [|apply Ew]. cbv beta. lia.
      * rewrite app_length. cbn [length]. unfold L'. cbn [cnt push]. lia.
      * intros i Hi. unfold L' in *. cbn [cnt push reg] in *. unfold upd. destruct (Nat.eqb_spec i (cnt L)); [reflexivity|]. apply Ea. lia.
      * apply (lr_small _ _ _ HR).
      * intros i. destruct (Nat.lt_ge_cases i (length (lmem a))) as [Hi|Hi]; [rewrite app_nth1 by exact Hi; apply (lr_lanes _ _ _ HR)|]. rewrite app_nth2 by exact Hi.
        destruct (i - length (lmem a)) as [|[|z]]; cbn [nth]; [|constructor|constructor]. apply Forall_forall. intros v Hv. apply in_map_iff in Hv. destruct Hv as (z & <- & _). apply lane_lt, Bk.
      * reflexivity.
      * apply (heap_ext _ _ _ _ _ _ _ HPu). intros i Hi. cbn [cnt push] in Hi. unfold cset. destruct (Nat.eqb_spec i (cnt L)) as [->|Hne].
        { rewrite app_nth2 by lia. rewrite Hc, Nat.sub_diag. cbn [nth]. exact Elb. } { rewrite app_nth1 by lia. reflexivity. }
    + intros y [Hy Ny]. split; [|reflexivity]. cbn [nx] in Ny. pose proof (lr_heap _ _ _ Hy) as Hh. rewrite Ny in Hh.
      pose proof (heap_pop n0 m0 L (nx st) (mm y) k _ (heap_lay _ _ _ _ _ _ (lr_heap _ _ _ HR)) Hh) as HPo.
      pose proof (lr_pv _ _ _ Hy) as Yp. pose proof (lr_lanes _ _ _ Hy) as Yl.
      split; cbn [iv dv pv mm nx ct liv ldv lpv lmem lct].
      * apply (lr_iv _ _ _ Hy).
      * apply (lr_dv _ _ _ Hy).
      * intros z. unfold upd. destruct (Nat.eqb_spec z x) as [->|Hne]; [apply (lr_pv _ _ _ HR)|]. rewrite Yp, S1. unfold upd. rewrite (proj2 (Nat.eqb_neq z x) Hne).
        apply map_ext_in. intros [r o] Hin. pose proof (lr_wf _ _ _ HR z) as Ew. rewrite Forall_forall in Ew. specialize (Ew _ Hin). cbn [fst] in Ew. unfold conc, L'. cbn [fst snd reg push]. rewrite upd_neq by lia. reflexivity.
      * intros z. unfold upd. destruct (Nat.eqb_spec z x) as [->|Hne]; [apply (lr_wf _ _ _ HR)|]. rewrite S1. unfold upd. rewrite (proj2 (Nat.eqb_neq z x) Hne). apply (lr_wf _ _ _ HR).
      * rewrite firstn_length, S2, app_length. lia.
      * apply (lr_al _ _ _ HR).
      * apply (lr_small _ _ _ Hy).
      * intros i. destruct (Nat.lt_ge_cases i (length (lmem a))) as [Hi|Hi]; [rewrite nth_firstn by exact Hi; apply Yl|]. rewrite nth_overflow by (rewrite firstn_length; lia). constructor.
      * apply (lr_ct _ _ _ Hy).
      * apply (heap_ext _ _ _ _ _ _ _ HPo). intros i Hi. rewrite nth_firstn by lia. reflexivity.
  - destruct da; [|discriminate]. destruct ir; [|discriminate]. destruct dr; [|discriminate]. destruct (pargevals (liv a) (lpv a) pa) as [ps|] eqn:Ep; [|discriminate].
    destruct (lrun locG s _) as [c|] eqn:E; [|discriminate]. injection H as <-. pose proof (lr_iv _ _ _ HR) as Ei. pose proof (lr_pv _ _ _ HR) as Epv. pose proof (lr_wf _ _ _ HR) as Ew.
    destruct (pargevals_conc L _ _ _ Epv Ew pa ps Ep) as [Ep' Wps]. rewrite <- Ei in Ep'. eapply runs_call; [exact Ep'|].
    eapply runs_mono; [apply (IH L _ _ c E)|].
    + cbn [map]. rewrite Ei. split; cbn [iv dv pv mm nx ct liv ldv lpv lmem lct].
      * reflexivity.
      * reflexivity.
      * intros x. exact (args_map (map (conc L)) ps [] x).
      * intros x. unfold args. destruct (Nat.lt_ge_cases x (length ps)) as [Hx|Hx]; [|rewrite nth_overflow by exact Hx; constructor]. rewrite Forall_forall in Wps. apply Wps, nth_In, Hx.
      * apply (lr_cnt _ _ _ HR).
      * apply (lr_al _ _ _ HR).
      * intros x. unfold args. destruct x; reflexivity.
      * apply (lr_lanes _ _ _ HR).
      * apply (lr_ct _ _ _ HR).
      * apply (lr_heap _ _ _ HR).
    + intros y [Hy Ny]. split; [|exact Ny]. cbn [copy_back]. split; cbn [iv dv pv mm nx ct liv ldv lpv lmem lct].
      * exact Ei.
      * apply (lr_dv _ _ _ HR).
      * exact Epv.
      * exact Ew.
      * apply (lr_cnt _ _ _ Hy).
      * apply (lr_al _ _ _ HR).
      * apply (lr_small _ _ _ HR).
      * apply (lr_lanes _ _ _ Hy).
      * apply (lr_ct _ _ _ Hy).
      * apply (lr_heap _ _ _ Hy).
Qed.
End A.
