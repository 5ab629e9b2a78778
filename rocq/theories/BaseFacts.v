(** Reasoning about the outcome monad, loops, buffers and bits. *)

From Coq Require Import List NArith Arith Bool Btauto Lia ZifyBool ZifyNat ZifyN.
From Verif Require Import Base Params Env Spec.
Import ListNotations.

Global Arguments Nat.div : simpl never.
Global Arguments Nat.mul : simpl never.
Global Arguments Nat.sub : simpl never.
Global Arguments Nat.pow : simpl never.
Global Arguments Nat.modulo : simpl never.
Global Arguments N.modulo : simpl never.
Global Arguments N.div : simpl never.
Global Arguments N.testbit : simpl never.

(** ** Total correctness: no UB, no assertion failure, no exhausted fuel. *)
Definition ok {A : Type} (m : res A) (Q : A -> Prop) : Prop :=
  match m with Ok a => Q a | _ => False end.

(** Safety: the fuel may run out, but neither UB nor an assertion failure. *)
Definition okf {A : Type} (m : res A) (Q : A -> Prop) : Prop :=
  match m with Ok a => Q a | NoFuel => True | _ => False end.

Lemma ok_bind {A B} (m : res A) (f : A -> res B) Q :
  ok m (fun a => ok (f a) Q) -> ok (bind m f) Q.
Proof. destruct m; simpl; auto. Qed.

Lemma okf_bind {A B} (m : res A) (f : A -> res B) Q :
  okf m (fun a => okf (f a) Q) -> okf (bind m f) Q.
Proof. destruct m; simpl; auto. Qed.

Lemma ok_mono {A} (m : res A) (Q Q' : A -> Prop) :
  ok m Q -> (forall a, Q a -> Q' a) -> ok m Q'.
Proof. destruct m; simpl; auto. Qed.

Lemma okf_mono {A} (m : res A) (Q Q' : A -> Prop) :
  okf m Q -> (forall a, Q a -> Q' a) -> okf m Q'.
Proof. destruct m; simpl; auto. Qed.

Lemma ok_okf {A} (m : res A) (Q : A -> Prop) : ok m Q -> okf m Q.
Proof. destruct m; simpl; tauto. Qed.

Lemma ok_step {A B} (m : res A) (f : A -> res B) (Q : A -> Prop) (R : B -> Prop) :
  ok m Q -> (forall a, Q a -> ok (f a) R) -> ok (bind m f) R.
Proof. destruct m; simpl; auto. Qed.

Lemma okf_step {A B} (m : res A) (f : A -> res B) (Q : A -> Prop) (R : B -> Prop) :
  ok m Q -> (forall a, Q a -> okf (f a) R) -> okf (bind m f) R.
Proof. destruct m; simpl; tauto || auto. Qed.

Lemma okf_stepf {A B} (m : res A) (f : A -> res B) (Q : A -> Prop) (R : B -> Prop) :
  okf m Q -> (forall a, Q a -> okf (f a) R) -> okf (bind m f) R.
Proof. destruct m; simpl; tauto || auto. Qed.

Lemma ok_ex {A} (m : res A) (Q : A -> Prop) : ok m Q <-> exists a, m = Ok a /\ Q a.
Proof.
  destruct m; simpl; split; try tauto; try (intros (x & H & _); discriminate).
  - eauto.
  - intros (x & H & Hq). inversion H; subst; auto.
Qed.

Lemma ok_eq {A} (m : res A) a (Q : A -> Prop) : m = Ok a -> Q a -> ok m Q.
Proof. intros ->; auto. Qed.

Lemma ok_elim {A} (m : res A) a (Q : A -> Prop) : ok m Q -> m = Ok a -> Q a.
Proof. intros H ->; auto. Qed.

Lemma okf_elim {A} (m : res A) a (Q : A -> Prop) : okf m Q -> m = Ok a -> Q a.
Proof. intros H ->; auto. Qed.

Lemma ok_conj {A} (m : res A) (Q R : A -> Prop) :
  ok m Q -> ok m R -> ok m (fun a => Q a /\ R a).
Proof. destruct m; simpl; auto. Qed.

Lemma bind_Ok_inv {A B} (m : res A) (f : A -> res B) b :
  bind m f = Ok b -> exists a, m = Ok a /\ f a = Ok b.
Proof. destruct m; simpl; try discriminate; eauto. Qed.

Lemma bind_Ok {A B} (a : A) (f : A -> res B) : bind (Ok a) f = f a.
Proof. reflexivity. Qed.

Lemma bind_assoc {A B C} (m : res A) (f : A -> res B) (g : B -> res C) :
  bind (bind m f) g = bind m (fun a => bind (f a) g).
Proof. destruct m; reflexivity. Qed.

Lemma bind_ext {A B} (m : res A) (f g : A -> res B) :
  (forall a, m = Ok a -> f a = g a) -> bind m f = bind m g.
Proof. destruct m; simpl; auto. Qed.

Lemma guard_ok (b : bool) (Q : unit -> Prop) : b = true -> Q tt -> ok (guard b) Q.
Proof. intros ->; auto. Qed.

Lemma c_assert_ok (b : bool) (Q : unit -> Prop) : b = true -> Q tt -> ok (c_assert b) Q.
Proof. intros ->; auto. Qed.

Lemma guard_true b : b = true -> guard b = Ok tt.
Proof. intros ->; reflexivity. Qed.

Lemma c_assert_true b : b = true -> c_assert b = Ok tt.
Proof. intros ->; reflexivity. Qed.

(** Inversion of [bind ... = Ok ...] hypotheses. *)
Ltac inv_bind H :=
  match type of H with
  | bind ?m ?f = Ok _ =>
      let x := fresh "x" in
      let Hx := fresh "Hx" in
      apply bind_Ok_inv in H; destruct H as (x & Hx & H)
  end.

(** ** Loops *)
Lemma ok_for {S} (I : nat -> S -> Prop) n i0 body (s : S) :
  I i0 s ->
  (forall i s, i0 <= i < i0 + n -> I i s -> ok (body i s) (I (Datatypes.S i))) ->
  ok (for_loop n i0 body s) (I (i0 + n)).
Proof.
  revert i0 s; induction n as [|n IH]; intros i0 s H0 Hs; simpl.
  - rewrite Nat.add_0_r; auto.
  - eapply ok_step; [apply Hs; auto; lia|].
    intros a Ha. rewrite <- Nat.add_succ_comm.
    apply IH; auto. intros; apply Hs; auto; lia.
Qed.

Lemma okf_for {S} (I : nat -> S -> Prop) n i0 body (s : S) :
  I i0 s ->
  (forall i s, i0 <= i < i0 + n -> I i s -> okf (body i s) (I (Datatypes.S i))) ->
  okf (for_loop n i0 body s) (I (i0 + n)).
Proof.
  revert i0 s; induction n as [|n IH]; intros i0 s H0 Hs; simpl.
  - rewrite Nat.add_0_r; auto.
  - eapply okf_stepf; [apply Hs; auto; lia|].
    intros a Ha. rewrite <- Nat.add_succ_comm.
    apply IH; auto. intros; apply Hs; auto; lia.
Qed.

Lemma for_loop_ext {S} n i0 (f g : nat -> S -> res S) s :
  (forall i s, i0 <= i < i0 + n -> f i s = g i s) ->
  for_loop n i0 f s = for_loop n i0 g s.
Proof.
  revert i0 s; induction n as [|n IH]; intros i0 s H; simpl; auto.
  rewrite H by lia. apply bind_ext. intros a _. apply IH. intros; apply H; lia.
Qed.

Lemma for_loop_app {S} n m i0 (body : nat -> S -> res S) s :
  for_loop (n + m) i0 body s =
  bind (for_loop n i0 body s) (fun s => for_loop m (i0 + n) body s).
Proof.
  revert i0 s; induction n as [|n IH]; intros i0 s; simpl.
  - rewrite Nat.add_0_r; reflexivity.
  - rewrite bind_assoc. apply bind_ext. intros a _. rewrite IH.
    rewrite <- Nat.add_succ_comm. reflexivity.
Qed.

Lemma ok_mapM_seq {A} (Q : nat -> A -> Prop) n i0 (f : nat -> res A) :
  (forall i, i0 <= i < i0 + n -> ok (f i) (Q i)) ->
  ok (mapM_seq n i0 f)
     (fun l => length l = n /\ forall k x, nth_error l k = Some x -> Q (i0 + k) x).
Proof.
  revert i0; induction n as [|n IH]; intros i0 H; simpl.
  - split; auto. intros k x; destruct k; discriminate.
  - eapply ok_step; [apply H; lia|]. intros a Ha. cbv beta in Ha.
    eapply ok_step; [apply IH; intros; apply H; lia|].
    intros l [Hl Hk]. simpl. split; [lia|].
    intros [|k] x Hx; simpl in Hx.
    + inversion Hx; subst. rewrite Nat.add_0_r; auto.
    + apply Hk in Hx. rewrite <- Nat.add_succ_comm; auto.
Qed.

Lemma okf_mapM_seq {A} (Q : nat -> A -> Prop) n i0 (f : nat -> res A) :
  (forall i, i0 <= i < i0 + n -> okf (f i) (Q i)) ->
  okf (mapM_seq n i0 f)
     (fun l => length l = n /\ forall k x, nth_error l k = Some x -> Q (i0 + k) x).
Proof.
  revert i0; induction n as [|n IH]; intros i0 H; simpl.
  - split; auto. intros k x; destruct k; discriminate.
  - eapply okf_stepf; [apply H; lia|]. intros a Ha. cbv beta in Ha.
    eapply okf_stepf; [apply IH; intros; apply H; lia|].
    intros l [Hl Hk]. simpl. split; [lia|].
    intros [|k] x Hx; simpl in Hx.
    + inversion Hx; subst. rewrite Nat.add_0_r; auto.
    + apply Hk in Hx. rewrite <- Nat.add_succ_comm; auto.
Qed.

Lemma mapM_seq_pure {A} n i0 (f : nat -> res A) g :
  (forall i, i0 <= i < i0 + n -> f i = Ok (g i)) ->
  mapM_seq n i0 f = Ok (map g (seq i0 n)).
Proof.
  revert i0; induction n as [|n IH]; intros i0 H; simpl; auto.
  rewrite H by lia. simpl. rewrite IH by (intros; apply H; lia). reflexivity.
Qed.

Lemma mapM_seq_ext {A} n i0 (f g : nat -> res A) :
  (forall i, i0 <= i < i0 + n -> f i = g i) -> mapM_seq n i0 f = mapM_seq n i0 g.
Proof.
  revert i0; induction n as [|n IH]; intros i0 H; simpl; auto.
  rewrite H by lia. apply bind_ext. intros a _.
  rewrite (IH (S i0)) by (intros; apply H; lia). reflexivity.
Qed.

Lemma mapM_seq_inv {A} n i0 (f : nat -> res A) l :
  mapM_seq n i0 f = Ok l ->
  length l = n /\ forall k x, nth_error l k = Some x -> f (i0 + k) = Ok x.
Proof.
  intros H.
  assert (Hok : ok (mapM_seq n i0 f) (fun l' => l' = l)) by (rewrite H; reflexivity).
  clear Hok. revert i0 l H; induction n as [|n IH]; intros i0 l H; simpl in H.
  - inversion H; subst. split; auto. intros [|k] x; discriminate.
  - inv_bind H. inv_bind H. inversion H; subst. apply IH in Hx0. destruct Hx0 as [Hl Hk].
    split; simpl; [lia|]. intros [|k] y Hy; simpl in Hy.
    + inversion Hy; subst. rewrite Nat.add_0_r; auto.
    + apply Hk in Hy. rewrite <- Nat.add_succ_comm; auto.
Qed.

Lemma mapM_seq_shift {A} n i0 (f : nat -> res A) :
  mapM_seq n (S i0) f = mapM_seq n i0 (fun i => f (S i)).
Proof.
  revert i0; induction n as [|n IH]; intros i0; simpl; auto.
  apply bind_ext; intros. rewrite IH. reflexivity.
Qed.

(** ** Lists *)
Lemma nth_error_nth' {A} (l : list A) i d : i < length l -> nth_error l i = Some (nth i l d).
Proof. intros H. apply nth_error_nth'; auto. Qed.

Lemma list_ext {A} (d : A) (a b : list A) :
  length a = length b -> (forall i, i < length a -> nth i a d = nth i b d) -> a = b.
Proof. intros. apply nth_ext with d d; auto. Qed.

Lemma length_list_set {A} (b : list A) i x : length (list_set b i x) = length b.
Proof. revert i; induction b; intros [|i]; simpl; auto. Qed.

Lemma nth_list_set {A} (b : list A) i x j d :
  i < length b -> nth j (list_set b i x) d = if j =? i then x else nth j b d.
Proof.
  revert i j; induction b; intros [|i] [|j] H; simpl in *; try lia; auto.
  apply IHb; lia.
Qed.

Lemma nth_error_list_set {A} (b : list A) i x j :
  i < length b -> nth_error (list_set b i x) j = if j =? i then Some x else nth_error b j.
Proof.
  revert i j; induction b; intros [|i] [|j] H; simpl in *; try lia; auto.
  apply IHb; lia.
Qed.

Lemma Forall_list_set {A} (p : A -> Prop) (b : list A) i x :
  Forall p b -> p x -> Forall p (list_set b i x).
Proof.
  intros H Hx; revert i; induction H; intros [|i]; simpl; auto.
Qed.

Lemma rd_ok {A} (b : list A) i d : i < length b -> rd b i = Ok (nth i b d).
Proof. intros H. unfold rd. rewrite (nth_error_nth' b i d); auto. Qed.

Lemma rd_inv {A} (b : list A) i x : rd b i = Ok x -> nth_error b i = Some x.
Proof. unfold rd. destruct (nth_error b i); congruence. Qed.

Lemma rd_some {A} (b : list A) i x : nth_error b i = Some x -> rd b i = Ok x.
Proof. unfold rd. intros ->; auto. Qed.

Lemma wr_ok {A} (b : list A) i x : i < length b -> wr b i x = Ok (list_set b i x).
Proof. intros H. unfold wr. apply Nat.ltb_lt in H. rewrite H; auto. Qed.

Lemma wr_inv {A} (b : list A) i x b' : wr b i x = Ok b' -> i < length b /\ b' = list_set b i x.
Proof.
  unfold wr. destruct (Nat.ltb_spec i (length b)); try discriminate.
  intros H1; inversion H1; auto.
Qed.

Lemma slice_ok {A} (b : list A) off len :
  off + len <= length b -> slice b off len = Ok (firstn len (skipn off b)).
Proof. intros H. unfold slice. apply Nat.leb_le in H. rewrite H; auto. Qed.

Lemma slice_inv {A} (b : list A) off len s :
  slice b off len = Ok s -> off + len <= length b /\ s = firstn len (skipn off b).
Proof.
  unfold slice. destruct (Nat.leb_spec (off + len) (length b)); try discriminate.
  intros H1; inversion H1; auto.
Qed.

Lemma slice0_ok {A} (b : list A) len : len <= length b -> slice b 0 len = Ok (firstn len b).
Proof. intros H. rewrite slice_ok by lia. reflexivity. Qed.

Lemma slice_all {A} (b : list A) len : len = length b -> slice b 0 len = Ok b.
Proof. intros ->. rewrite slice0_ok by lia. rewrite firstn_all; auto. Qed.

Lemma length_slice {A} (b : list A) off len :
  off + len <= length b -> length (firstn len (skipn off b)) = len.
Proof. intros H. rewrite firstn_length, skipn_length; lia. Qed.

Lemma slice_app1 {A} (a b : list A) len : len = length a -> slice (a ++ b) 0 len = Ok a.
Proof.
  intros ->. rewrite slice0_ok by (rewrite app_length; lia).
  f_equal. rewrite firstn_app, Nat.sub_diag, firstn_all, firstn_O, app_nil_r; auto.
Qed.

Lemma slice_app_off {A} (a b c : list A) off len :
  off = length a -> len = length b -> slice (a ++ b ++ c) off len = Ok b.
Proof.
  intros -> ->. rewrite slice_ok by (rewrite !app_length; lia).
  f_equal. rewrite skipn_app, skipn_all, Nat.sub_diag; simpl.
  rewrite firstn_app, Nat.sub_diag, firstn_all, firstn_O, app_nil_r; auto.
Qed.

Definition blit_list {A} (b : list A) (off : nat) (src : list A) : list A :=
  firstn off b ++ src ++ skipn (off + length src) b.

Lemma blit_ok {A} (b : list A) off src :
  off + length src <= length b -> blit b off src = Ok (blit_list b off src).
Proof. intros H. unfold blit. apply Nat.leb_le in H. rewrite H; auto. Qed.

Lemma blit_inv {A} (b : list A) off src b' :
  blit b off src = Ok b' -> off + length src <= length b /\ b' = blit_list b off src.
Proof.
  unfold blit. destruct (Nat.leb_spec (off + length src) (length b)); try discriminate.
  intros H1; inversion H1; auto.
Qed.

Lemma length_blit_list {A} (b : list A) off src :
  off + length src <= length b -> length (blit_list b off src) = length b.
Proof.
  intros H. unfold blit_list. rewrite !app_length, firstn_length, skipn_length. lia.
Qed.

Lemma nth_firstn {A} (l : list A) n i d : i < n -> nth i (firstn n l) d = nth i l d.
Proof. revert n i; induction l; intros [|n] [|i] H; simpl; auto; try lia. apply IHl; lia. Qed.

Lemma nth_skipn {A} (l : list A) n i d : nth i (skipn n l) d = nth (n + i) l d.
Proof. revert n i; induction l; intros [|n] i; simpl; auto. destruct i; auto. Qed.

Lemma nth_blit_list {A} (b : list A) off src i d :
  off + length src <= length b ->
  nth i (blit_list b off src) d =
  if (off <=? i) && (i <? off + length src) then nth (i - off) src d else nth i b d.
Proof.
  intros H. unfold blit_list.
  destruct (Nat.leb_spec off i); destruct (Nat.ltb_spec i (off + length src)); simpl.
  - rewrite app_nth2 by (rewrite firstn_length; lia).
    rewrite firstn_length, Nat.min_l by lia. rewrite app_nth1 by lia. auto.
  - rewrite app_nth2 by (rewrite firstn_length; lia).
    rewrite firstn_length, Nat.min_l by lia. rewrite app_nth2 by lia.
    rewrite nth_skipn. f_equal; lia.
  - rewrite app_nth1 by (rewrite firstn_length; lia). apply nth_firstn; auto.
  - rewrite app_nth1 by (rewrite firstn_length; lia). apply nth_firstn; auto.
Qed.

Lemma blit0_all {A} (b src : list A) : length src = length b -> blit b 0 src = Ok src.
Proof.
  intros H. rewrite blit_ok by lia. unfold blit_list. simpl.
  rewrite skipn_all2 by lia. rewrite app_nil_r. auto.
Qed.

Lemma firstn_blit0 {A} (b src : list A) n :
  n = length src -> firstn n (blit_list b 0 src) = src.
Proof.
  intros ->. unfold blit_list; simpl.
  rewrite firstn_app, Nat.sub_diag, firstn_all, firstn_O, app_nil_r; auto.
Qed.

Lemma Forall_firstn {A} (p : A -> Prop) n (l : list A) : Forall p l -> Forall p (firstn n l).
Proof. intros H; revert n; induction H; intros [|n]; simpl; auto. Qed.

Lemma Forall_skipn {A} (p : A -> Prop) n (l : list A) : Forall p l -> Forall p (skipn n l).
Proof. intros H; revert n; induction H; intros [|n]; simpl; auto. Qed.

Lemma length_zeros n : length (zeros n) = n.
Proof. apply repeat_length. Qed.

Lemma nth_zeros n i : nth i (zeros n) 0%N = 0%N.
Proof. unfold zeros. revert i; induction n; intros [|i]; simpl; auto. Qed.

Lemma eqb_bytes_eq a b : eqb_bytes a b = true <-> a = b.
Proof.
  revert b; induction a as [|x a IH]; intros [|y b]; simpl; split; try congruence; auto.
  - intros H. apply andb_true_iff in H. destruct H as [H1 H2].
    apply N.eqb_eq in H1. apply IH in H2. congruence.
  - intros H. inversion H; subst. rewrite N.eqb_refl; simpl. apply IH; auto.
Qed.

Lemma memcmp_ok a b n :
  n <= length a -> n <= length b ->
  memcmp_eq a b n = Ok (eqb_bytes (firstn n a) (firstn n b)).
Proof. intros. unfold memcmp_eq. rewrite !slice0_ok by lia. reflexivity. Qed.

(** ** Bytes *)
Lemma bytes_ok_zeros n : bytes_ok (zeros n).
Proof. apply Forall_forall. intros x H. apply repeat_spec in H. subst. reflexivity. Qed.

Lemma bytes_ok_app a b : bytes_ok (a ++ b) <-> bytes_ok a /\ bytes_ok b.
Proof. apply Forall_app. Qed.

Lemma bytes_ok_blit b off src :
  bytes_ok b -> bytes_ok src -> bytes_ok (blit_list b off src).
Proof.
  intros. unfold blit_list. apply bytes_ok_app; split; [apply Forall_firstn; auto|].
  apply bytes_ok_app; split; auto. apply Forall_skipn; auto.
Qed.

Lemma bytes_ok_slice b off len : bytes_ok b -> bytes_ok (firstn len (skipn off b)).
Proof. intros. apply Forall_firstn, Forall_skipn; auto. Qed.

Lemma bytes_ok_nth b i : bytes_ok b -> byte (nth i b 0%N).
Proof.
  intros H. destruct (lt_dec i (length b)).
  - eapply Forall_forall; eauto. apply nth_In; auto.
  - rewrite nth_overflow by lia. reflexivity.
Qed.

Lemma byte_high x k : byte x -> (8 <= k)%N -> N.testbit x k = false.
Proof.
  intros H Hk. destruct (N.eq_dec x 0) as [->|Hx]; [apply N.bits_0|].
  apply N.bits_above_log2. apply N.lt_le_trans with 8%N; auto.
  apply N.log2_lt_pow2; [lia|]. exact H.
Qed.

Lemma byte_ext x y :
  byte x -> byte y -> (forall k, (k < 8)%N -> N.testbit x k = N.testbit y k) -> x = y.
Proof.
  intros Hx Hy H. apply N.bits_inj. intros k. destruct (N.lt_ge_cases k 8).
  - auto.
  - rewrite !byte_high; auto.
Qed.

(** ** Bits *)

Lemma land_1_eqb x : N.eqb (N.land x 1) 1 = N.testbit x 0.
Proof.
  rewrite N.bit0_odd. change 1%N with (N.ones 1) at 1. rewrite N.land_ones.
  change (2 ^ 1)%N with 2%N. rewrite <- N.bit0_mod, N.bit0_odd.
  destruct (N.odd x); reflexivity.
Qed.

Lemma getBit_ok b i : i / 8 < length b -> getBit b i = Ok (bit b i).
Proof.
  intros H. unfold getBit. rewrite (rd_ok b _ 0%N) by auto. simpl bind.
  rewrite land_1_eqb, N.shiftr_spec by lia. reflexivity.
Qed.

Lemma getBit_inv b i v : getBit b i = Ok v -> i / 8 < length b /\ v = bit b i.
Proof.
  intros H. unfold getBit in H. inv_bind H. apply rd_inv in Hx.
  assert (i / 8 < length b) by (apply nth_error_Some; congruence).
  split; auto.
  assert (Hg : getBit b i = Ok (bit b i)) by (apply getBit_ok; auto).
  unfold getBit in Hg. rewrite (rd_some _ _ _ Hx) in Hg. cbn [bind] in Hg. cbv beta in H. congruence.
Qed.

(** The value stored by [setBit]. *)
Definition set_bit (b : bytes) (i : nat) (v : bool) : bytes :=
  let k := N.of_nat (7 - i mod 8) in
  list_set b (i / 8)
     (N.modulo (N.lor (N.ldiff (nth (i / 8) b 0%N) (N.shiftl 1 k)) (N.shiftl (b2n v) k)) 256).

Lemma setBit_ok b i v : i / 8 < length b -> setBit b i v = Ok (set_bit b i v).
Proof.
  intros H. unfold setBit. rewrite (rd_ok b _ 0%N) by auto. simpl bind.
  rewrite wr_ok by auto. reflexivity.
Qed.

Lemma setBit_inv b i v b' : setBit b i v = Ok b' -> i / 8 < length b /\ b' = set_bit b i v.
Proof.
  intros H. destruct (lt_dec (i / 8) (length b)).
  - rewrite setBit_ok in H by auto. inversion H; auto.
  - unfold setBit in H. unfold rd in H.
    rewrite (proj2 (nth_error_None b (i / 8))) in H by lia. discriminate.
Qed.

Lemma length_set_bit b i v : length (set_bit b i v) = length b.
Proof. apply length_list_set. Qed.

Lemma bytes_ok_set_bit b i v : bytes_ok b -> bytes_ok (set_bit b i v).
Proof.
  intros H. apply Forall_list_set; auto. apply N.mod_upper_bound. discriminate.
Qed.

Lemma testbit_mod256 x k : (k < 8)%N -> N.testbit (N.modulo x 256) k = N.testbit x k.
Proof. intros. change 256%N with (2 ^ 8)%N. apply N.mod_pow2_bits_low; auto. Qed.

Lemma testbit_b2n v k : N.testbit (b2n v) k = (v && N.eqb k 0)%bool.
Proof.
  destruct v; simpl b2n.
  - destruct k as [|p]; simpl; auto; destruct p; auto.
  - apply N.bits_0.
Qed.

Lemma testbit_shl_b2n v k j :
  N.testbit (N.shiftl (b2n v) k) j = (v && N.eqb j k)%bool.
Proof.
  destruct (N.lt_ge_cases j k).
  - rewrite N.shiftl_spec_low by auto.
    destruct (N.eqb_spec j k); [lia|]. destruct v; auto.
  - rewrite N.shiftl_spec_high by lia. rewrite testbit_b2n. f_equal.
    destruct (N.eqb_spec j k); destruct (N.eqb_spec (j - k) 0); auto; lia.
Qed.

Lemma div8_mod8 i j : i / 8 = j / 8 -> i mod 8 = j mod 8 -> i = j.
Proof.
  intros H1 H2. rewrite (Nat.div_mod i 8), (Nat.div_mod j 8) by lia. lia.
Qed.

Lemma lt_div8 i len : i < 8 * len -> i / 8 < len.
Proof. intros. apply Nat.div_lt_upper_bound; lia. Qed.

Lemma mod8_lt i : i mod 8 < 8.
Proof. apply Nat.mod_upper_bound; lia. Qed.

Lemma bit_set_bit b i v j :
  i / 8 < length b ->
  bit (set_bit b i v) j = if j =? i then v else bit b j.
Proof.
  intros H. unfold bit, set_bit. rewrite nth_list_set by auto.
  destruct (Nat.eqb_spec (j / 8) (i / 8)) as [He|He].
  - pose proof (mod8_lt i). pose proof (mod8_lt j).
    rewrite testbit_mod256 by lia. rewrite N.lor_spec, N.ldiff_spec.
    change 1%N with (b2n true). rewrite !testbit_shl_b2n.
    destruct (Nat.eqb_spec j i) as [->|Hn].
    + rewrite N.eqb_refl. simpl. rewrite andb_false_r, andb_true_r. auto.
    + assert (Hd : (N.of_nat (7 - j mod 8) =? N.of_nat (7 - i mod 8))%N = false).
      { apply N.eqb_neq. intros Hc. apply Hn, div8_mod8; auto. lia. }
      rewrite Hd, !andb_false_r, orb_false_r. simpl. rewrite andb_true_r.
      rewrite He. auto.
  - destruct (Nat.eqb_spec j i) as [->|Hn]; [congruence|auto].
Qed.

Lemma bit_zeros n i : bit (zeros n) i = false.
Proof. unfold bit. rewrite nth_zeros. apply N.bits_0. Qed.

Lemma bit_overflow b i : length b <= i / 8 -> bit b i = false.
Proof. intros. unfold bit. rewrite nth_overflow by lia. apply N.bits_0. Qed.

(** A well-formed byte string is determined by its bits. *)
Lemma bits_ext a b :
  length a = length b -> bytes_ok a -> bytes_ok b ->
  (forall i, i < 8 * length a -> bit a i = bit b i) -> a = b.
Proof.
  intros Hl Ha Hb H. apply list_ext with 0%N; auto.
  intros j Hj. apply byte_ext; try (apply bytes_ok_nth; auto).
  intros k Hk.
  specialize (H (8 * j + (7 - N.to_nat k)) ltac:(lia)). unfold bit in H.
  replace ((8 * j + (7 - N.to_nat k)) / 8) with j in H.
  2:{ rewrite Nat.mul_comm, Nat.div_add_l by lia. rewrite Nat.div_small; lia. }
  replace ((8 * j + (7 - N.to_nat k)) mod 8) with (7 - N.to_nat k) in H.
  2:{ rewrite Nat.mul_comm, Nat.add_comm, Nat.mod_add by lia. rewrite Nat.mod_small; lia. }
  replace (N.of_nat (7 - (7 - N.to_nat k))) with k in H by lia. auto.
Qed.

Lemma bit_firstn b n i : i < 8 * n -> bit (firstn n b) i = bit b i.
Proof.
  intros H. unfold bit. rewrite nth_firstn; auto. apply Nat.div_lt_upper_bound; lia.
Qed.

Lemma bit_blit0 b src i :
  length src <= length b ->
  bit (blit_list b 0 src) i = if i <? 8 * length src then bit src i else bit b i.
Proof.
  intros H. unfold bit. rewrite nth_blit_list by lia. simpl. rewrite Nat.sub_0_r.
  destruct (Nat.ltb_spec i (8 * length src)); destruct (Nat.ltb_spec (i / 8) (length src)); auto.
  - exfalso. apply lt_div8 in H0. lia.
  - exfalso. pose proof (Nat.div_mod i 8 ltac:(lia)). pose proof (mod8_lt i). lia.
Qed.

Lemma bit_app1 a b i : i < 8 * length a -> bit (a ++ b) i = bit a i.
Proof.
  intros H. unfold bit. rewrite app_nth1; auto. apply Nat.div_lt_upper_bound; lia.
Qed.

(** ** numBytes *)
Lemma numBytes_spec n : n <= 8 * numBytes n < n + 8.
Proof.
  unfold numBytes. destruct (Nat.eqb_spec n 0); [subst; simpl; lia|].
  pose proof (Nat.div_mod (n - 1) 8 ltac:(lia)). pose proof (mod8_lt (n - 1)). lia.
Qed.

(** ** XOR of byte lists *)
Lemma length_lxor_list a b : length a = length b -> length (lxor_list a b) = length a.
Proof. revert b; induction a; intros [|y b]; simpl; auto; try discriminate. Qed.

Lemma nth_lxor_list a b i :
  length a = length b -> nth i (lxor_list a b) 0%N = N.lxor (nth i a 0%N) (nth i b 0%N).
Proof.
  revert b i; induction a; intros [|y b] [|i]; simpl; auto; try discriminate.
Qed.

Lemma bit_lxor_list a b i :
  length a = length b -> bit (lxor_list a b) i = xorb (bit a i) (bit b i).
Proof. intros. unfold bit. rewrite nth_lxor_list by auto. apply N.lxor_spec. Qed.

Lemma byte_lxor x y : byte x -> byte y -> byte (N.lxor x y).
Proof.
  intros Hx Hy. unfold byte. destruct (N.eq_dec (N.lxor x y) 0) as [->|Hn]; [reflexivity|].
  change 256%N with (2 ^ 8)%N. apply N.log2_lt_pow2; [lia|].
  apply N.nle_gt. intros Hc.
  pose proof (N.bit_log2 _ Hn) as Hb. rewrite N.lxor_spec, !byte_high in Hb; auto. discriminate.
Qed.

Lemma bytes_ok_lxor a b : bytes_ok a -> bytes_ok b -> bytes_ok (lxor_list a b).
Proof.
  intros Ha; revert b; induction Ha; intros b Hb; simpl.
  - constructor.
  - destruct Hb; constructor; auto. apply byte_lxor; auto. apply IHHa; auto.
Qed.

Lemma xor_array_ok out in1 in2 len :
  4 * len <= length in1 -> 4 * len <= length in2 -> 4 * len <= length out ->
  xor_array out in1 in2 len =
  Ok (blit_list out 0 (lxor_list (firstn (4 * len) in1) (firstn (4 * len) in2))).
Proof.
  intros. unfold xor_array. rewrite !slice0_ok by lia. simpl bind.
  rewrite blit_ok; auto. rewrite length_lxor_list; rewrite !firstn_length; lia.
Qed.

(** Postcondition form of [xor_array]. *)
Lemma xor_array_spec out in1 in2 len :
  4 * len <= length in1 -> 4 * len <= length in2 -> 4 * len <= length out ->
  ok (xor_array out in1 in2 len)
     (fun o => length o = length out
               /\ (bytes_ok out -> bytes_ok in1 -> bytes_ok in2 -> bytes_ok o)
               /\ (forall i, bit o i = if i <? 32 * len then xorb (bit in1 i) (bit in2 i)
                                       else bit out i)).
Proof.
  intros. rewrite xor_array_ok by lia. simpl.
  assert (Hl : length (lxor_list (firstn (4 * len) in1) (firstn (4 * len) in2)) = 4 * len)
    by (rewrite length_lxor_list; rewrite !firstn_length; lia).
  split; [apply length_blit_list; lia|]. split.
  - intros. apply bytes_ok_blit; auto. apply bytes_ok_lxor; apply Forall_firstn; auto.
  - intros i. rewrite bit_blit0 by lia. rewrite Hl.
    replace (8 * (4 * len)) with (32 * len) by lia.
    destruct (Nat.ltb_spec i (32 * len)); auto.
    rewrite bit_lxor_list by (rewrite !firstn_length; lia).
    rewrite !bit_firstn by lia. auto.
Qed.

Lemma xor_three_spec out in1 in2 in3 n :
  n <= length in1 -> n <= length in2 -> n <= length in3 -> n <= length out ->
  ok (xor_three out in1 in2 in3 n)
     (fun o => length o = length out
               /\ (bytes_ok out -> bytes_ok in1 -> bytes_ok in2 -> bytes_ok in3 -> bytes_ok o)
               /\ (forall i, bit o i = if i <? 8 * n
                                       then xorb (xorb (bit in1 i) (bit in2 i)) (bit in3 i)
                                       else bit out i)).
Proof.
  intros. unfold xor_three. rewrite !slice0_ok by lia. simpl bind.
  set (s := lxor_list _ _).
  assert (Hl2 : length (lxor_list (firstn n in1) (firstn n in2)) = n)
    by (rewrite length_lxor_list; rewrite !firstn_length; lia).
  assert (Hl : length s = n).
  { unfold s. rewrite length_lxor_list; rewrite ?Hl2, ?firstn_length; lia. }
  rewrite blit_ok by lia. simpl.
  split; [apply length_blit_list; lia|]. split.
  - intros. apply bytes_ok_blit; auto.
    repeat apply bytes_ok_lxor; apply Forall_firstn; auto.
  - intros i. rewrite bit_blit0 by lia. rewrite Hl.
    destruct (Nat.ltb_spec i (8 * n)); auto. unfold s.
    rewrite !bit_lxor_list; rewrite ?Hl2; rewrite ?firstn_length; try lia.
    rewrite !bit_firstn by lia. auto.
Qed.

(** ** zeroTrailingBits / arePaddingBitsZero *)
Lemma zeroTrailingBits_spec data n :
  numBytes n <= length data ->
  ok (zeroTrailingBits data n)
     (fun d => length d = length data
               /\ (bytes_ok data -> bytes_ok d)
               /\ (forall i, bit d i = if (n <=? i) && (i <? 8 * numBytes n) then false
                                       else bit data i)).
Proof.
  intros H. unfold zeroTrailingBits. pose proof (numBytes_spec n) as Hn.
  eapply ok_mono.
  - apply ok_for with
      (I := fun i d => length d = length data /\ (bytes_ok data -> bytes_ok d)
                       /\ forall j, bit d j = if (n <=? j) && (j <? i) then false else bit data j).
    + split; [|split]; auto. intros j.
      destruct (Nat.leb_spec n j); destruct (Nat.ltb_spec j n); simpl; auto; lia.
    + intros i d Hi (Hl & Hb & Hd).
      assert (i / 8 < length d) by (apply lt_div8; lia).
      rewrite setBit_ok by auto. simpl. rewrite length_set_bit.
      split; [auto|]. split; [intros; apply bytes_ok_set_bit; auto|].
      intros j. rewrite bit_set_bit by auto. rewrite Hd.
      destruct (Nat.eqb_spec j i); destruct (Nat.leb_spec n j);
        destruct (Nat.ltb_spec j i); destruct (Nat.ltb_spec j (S i)); simpl; auto; lia.
  - intros d (Hl & Hb & Hd). split; [|split]; auto.
    intros i. rewrite Hd. replace (n + (numBytes n * 8 - n)) with (8 * numBytes n) by lia. auto.
Qed.

Lemma arePaddingBitsZero_from_spec k i data :
  i + k <= 8 * length data ->
  arePaddingBitsZero_from k i data =
  Ok (forallb (fun j => negb (bit data j)) (seq i k)).
Proof.
  revert i; induction k as [|k IH]; intros i H; simpl; auto.
  rewrite getBit_ok by (apply lt_div8; lia). simpl bind.
  destruct (bit data i); simpl; auto. apply IH; lia.
Qed.

Lemma arePaddingBitsZero_spec data n :
  numBytes n <= length data ->
  exists v, arePaddingBitsZero data n = Ok v /\
            (v = true <-> forall i, n <= i < 8 * numBytes n -> bit data i = false).
Proof.
  intros H. pose proof (numBytes_spec n). unfold arePaddingBitsZero.
  rewrite arePaddingBitsZero_from_spec by lia. eexists; split; [reflexivity|].
  rewrite forallb_forall. split; intros Hf i Hi.
  - specialize (Hf i). rewrite in_seq in Hf. destruct (bit data i); auto.
    simpl in Hf. symmetry. apply Hf; lia.
  - apply in_seq in Hi. rewrite Hf by lia. reflexivity.
Qed.

(** ** Parity *)
Lemma xsum_ext n f g : (forall i, i < n -> f i = g i) -> xsum n f = xsum n g.
Proof.
  induction n; simpl; intros H; auto. rewrite IHn, H; auto.
Qed.

Lemma xsum_xorb n f g : xsum n (fun i => xorb (f i) (g i)) = xorb (xsum n f) (xsum n g).
Proof.
  induction n; simpl; auto. rewrite IHn.
  destruct (xsum n f), (xsum n g), (f n), (g n); auto.
Qed.

Lemma xsum_false n : xsum n (fun _ => false) = false.
Proof. induction n; simpl; auto. rewrite IHn; auto. Qed.

Lemma xsum_add n m f : xsum (n + m) f = xorb (xsum n f) (xsum m (fun i => f (n + i))).
Proof.
  induction m; simpl.
  - rewrite Nat.add_0_r, xorb_false_r; auto.
  - rewrite Nat.add_succ_r. simpl. rewrite IHm. rewrite xorb_assoc. auto.
Qed.

Lemma xsum_rev n f : xsum n f = xsum n (fun i => f (n - 1 - i)).
Proof.
  induction n; auto.
  rewrite (xsum_add 1 n (fun i => f (S n - 1 - i)) : xsum (S n) _ = _). cbn [xsum].
  rewrite IHn, xorb_false_l, xorb_comm. f_equal; [f_equal; lia|].
  apply xsum_ext. intros. f_equal. lia.
Qed.

Lemma xsum_and n b f : xsum n (fun i => b && f i) = b && xsum n f.
Proof.
  induction n; simpl; [destruct b; auto|]. rewrite IHn. destruct b; auto.
Qed.

Lemma xsum_single n k f : k < n -> (forall i, i < n -> i <> k -> f i = false) -> xsum n f = f k.
Proof.
  induction n; intros Hk H; [lia|]. simpl. destruct (Nat.eq_dec k n) as [->|].
  - rewrite (xsum_ext n f (fun _ => false)) by (intros; apply H; lia).
    rewrite xsum_false. apply xorb_false_l.
  - rewrite IHn, (H n) by (auto || lia). apply xorb_false_r.
Qed.

Lemma xsum_swap n m f :
  xsum n (fun i => xsum m (fun j => f i j)) = xsum m (fun j => xsum n (fun i => f i j)).
Proof.
  induction n; simpl; [rewrite xsum_false; auto|]. rewrite IHn, <- xsum_xorb. auto.
Qed.

Lemma parity32_spec x : parity32 x = xsum 32 (fun i => N.testbit x (N.of_nat i)).
Proof.
  unfold parity32. rewrite land_1_eqb.
  repeat first [rewrite N.lxor_spec | rewrite N.shiftr_spec by lia].
  cbn [xsum N.of_nat Pos.of_succ_nat Pos.succ N.add Pos.add Pos.add_carry].
  btauto.
Qed.

Global Arguments xsum : simpl never.
