(** Reasoning about memory: assertions on parts of live memory. *)

From Coq Require Import List NArith Arith Bool Lia Permutation.
From Verif Require Import Base Memory MemSpec.
Import ListNotations.

Definition hp : Type := list item -> Prop.

Definition sep (A B : hp) : hp := fun L => exists L1 L2, Permutation L (L1 ++ L2) /\ A L1 /\ B L2.
Definition emp : hp := fun L => L = [].
Definition one (x : item) : hp := fun L => L = [x].
Definition pure (Q : Prop) : hp := fun L => L = [] /\ Q.
Definition ex {T : Type} (A : T -> hp) : hp := fun L => exists x, A x L.
Definition stars (l : list hp) : hp := fold_right sep emp l.
Definition big (A : nat -> hp) (i n : nat) : hp := stars (map A (seq i n)).
Definition ent (A B : hp) : Prop := forall L, A L -> exists L', Permutation L L' /\ B L'.

(** ** Lists of assertions *)

Lemma stars_perm_L l L L' : Permutation L L' -> stars l L -> l <> [] -> stars l L'.
Proof.
  intros HL H Hl. destruct l as [|A l]; [congruence|]. destruct H as (L1 & L2 & Hp & H1 & H2).
  exists L1, L2. split; [rewrite <- HL; exact Hp|auto].
Qed.

(** [holds l L]: L can be divided into parts for the assertions of [l]. *)
Definition holds (l : list hp) (L : list item) : Prop := exists L', Permutation L L' /\ stars l L'.

Lemma holds_perm l L L' : Permutation L L' -> holds l L -> holds l L'.
Proof. intros H (K & HK & Hs). exists K. split; [rewrite <- H; exact HK|exact Hs]. Qed.

Lemma holds_cons A l L : holds (A :: l) L <-> exists L1 L2, Permutation L (L1 ++ L2) /\ A L1 /\ holds l L2.
Proof.
  split.
  - intros (K & HK & L1 & L2 & Hp & HA & Hl). exists L1, L2. split; [rewrite HK; exact Hp|]. split; [exact HA|].
    exists L2. auto.
  - intros (L1 & L2 & Hp & HA & (K & HK & Hl)). exists (L1 ++ K). split.
    + rewrite Hp. apply Permutation_app_head. exact HK.
    + exists L1, K. auto.
Qed.

Lemma holds_nil L : holds [] L <-> L = [].
Proof.
  split.
  - intros (K & HK & Hs). unfold stars in Hs. cbn in Hs. unfold emp in Hs. subst K. apply Permutation_nil. symmetry. exact HK.
  - intros ->. exists []. split; [constructor|reflexivity].
Qed.

Lemma holds_app l l' L : holds (l ++ l') L <-> exists L1 L2, Permutation L (L1 ++ L2) /\ holds l L1 /\ holds l' L2.
Proof.
  revert L. induction l as [|A l IH]; intros L.
  - cbn [app]. split.
    + intros H. exists [], L. split; [reflexivity|]. split; [apply holds_nil; reflexivity|exact H].
    + intros (L1 & L2 & Hp & H1 & H2). apply holds_nil in H1. subst L1. apply (holds_perm _ L2 L); [symmetry; exact Hp|exact H2].
  - cbn [app]. rewrite holds_cons. split.
    + intros (L1 & L2 & Hp & HA & H). apply IH in H. destruct H as (K1 & K2 & Hq & H1 & H2).
      exists (L1 ++ K1), K2. split; [rewrite Hp, Hq, app_assoc; reflexivity|]. split; [|exact H2].
      apply holds_cons. exists L1, K1. auto.
    + intros (L1 & L2 & Hp & H1 & H2). apply holds_cons in H1. destruct H1 as (K1 & K2 & Hq & HA & H1).
      exists K1, (K2 ++ L2). split; [rewrite Hp, Hq, <- app_assoc; reflexivity|]. split; [exact HA|].
      apply IH. exists K2, L2. auto.
Qed.

Lemma holds_perm_l l l' L : Permutation l l' -> holds l L -> holds l' L.
Proof.
  intros Hp. revert L. induction Hp; intros L H; auto.
  - apply holds_cons in H. destruct H as (L1 & L2 & Hp' & HA & H). apply holds_cons. exists L1, L2. auto.
  - apply holds_cons in H. destruct H as (L1 & L2 & P1 & H1 & H). apply holds_cons in H. destruct H as (K1 & K2 & P2 & H2 & H).
    apply holds_cons. exists K1, (L1 ++ K2). split.
    + rewrite P1, P2, !app_assoc. apply Permutation_app_tail, Permutation_app_comm.
    + split; [exact H2|]. apply holds_cons. exists L1, K2. auto.
Qed.

Lemma holds_stars l l' L : holds (stars l :: l') L <-> holds (l ++ l') L.
Proof.
  rewrite holds_cons, holds_app. split.
  - intros (L1 & L2 & Hp & H1 & H2). exists L1, L2. split; [exact Hp|]. split; [exists L1; auto|exact H2].
  - intros (L1 & L2 & Hp & (K & HK & H1) & H2). exists K, L2. split; [rewrite Hp, HK; reflexivity|auto].
Qed.

Lemma holds_ex {T} (A : T -> hp) l L : holds (ex A :: l) L <-> exists x, holds (A x :: l) L.
Proof.
  rewrite holds_cons. split.
  - intros (L1 & L2 & Hp & (x & H1) & H2). exists x. apply holds_cons. exists L1, L2. auto.
  - intros (x & H). apply holds_cons in H. destruct H as (L1 & L2 & Hp & H1 & H2). exists L1, L2. split; [exact Hp|].
    split; [exists x; exact H1|exact H2].
Qed.

Lemma holds_pure Q l L : holds (pure Q :: l) L <-> Q /\ holds l L.
Proof.
  rewrite holds_cons. split.
  - intros (L1 & L2 & Hp & (-> & HQ) & H2). split; [exact HQ|]. apply (holds_perm _ L2 L); [symmetry; exact Hp|exact H2].
  - intros [HQ H]. exists [], L. split; [reflexivity|]. split; [split; auto|exact H].
Qed.

Definition entl (l l' : list hp) : Prop := forall L, holds l L -> holds l' L.

Lemma entl_refl l : entl l l.
Proof. intros L H. exact H. Qed.
Lemma entl_trans l l' l'' : entl l l' -> entl l' l'' -> entl l l''.
Proof. intros H K L HL. apply K, H, HL. Qed.
Lemma entl_perm l l' : Permutation l l' -> entl l l'.
Proof. intros H L. apply holds_perm_l. exact H. Qed.
Lemma entl_app a b a' b' : entl a a' -> entl b b' -> entl (a ++ b) (a' ++ b').
Proof.
  intros H K L HL. apply holds_app in HL. destruct HL as (L1 & L2 & Hp & H1 & H2). apply holds_app.
  exists L1, L2. split; [exact Hp|]. split; [apply H, H1|apply K, H2].
Qed.
Lemma entl_cons A b b' : entl b b' -> entl (A :: b) (A :: b').
Proof. intros K. apply (entl_app [A] b [A] b'); [apply entl_refl|exact K]. Qed.
Lemma entl_head a A b : entl [a] [A] -> entl (a :: b) (A :: b).
Proof. intros H. apply (entl_app [a] b [A] b); [exact H|apply entl_refl]. Qed.
Lemma entl_head_l a A b : entl [a] A -> entl (a :: b) (A ++ b).
Proof. intros H. apply (entl_app [a] b A b); [exact H|apply entl_refl]. Qed.
Lemma entl_fold a A b : entl a [A] -> entl (a ++ b) (A :: b).
Proof. intros H. apply (entl_app a b [A] b); [exact H|apply entl_refl]. Qed.

Lemma entl_stars_out l l' : entl (stars l :: l') (l ++ l').
Proof. intros L. apply holds_stars. Qed.
Lemma entl_stars_in l l' : entl (l ++ l') (stars l :: l').
Proof. intros L. apply holds_stars. Qed.
Lemma entl_ex_in {T} (A : T -> hp) x l : entl (A x :: l) (ex A :: l).
Proof. intros L H. apply holds_ex. exists x. exact H. Qed.
Lemma entl_pure_in (Q : Prop) l : Q -> entl l (pure Q :: l).
Proof. intros HQ L H. apply holds_pure. auto. Qed.

(** ** Repeated assertions *)

Lemma big_S A i n : entl [big A i (S n)] [A i; big A (S i) n].
Proof.
  intros L H. unfold big in *. cbn [seq map] in H. apply (holds_stars (A i :: map A (seq (S i) n)) [] L) in H.
  rewrite app_nil_r in H. apply holds_cons in H. destruct H as (L1 & L2 & Hp & H1 & H2). apply holds_cons.
  exists L1, L2. split; [exact Hp|]. split; [exact H1|]. apply (holds_stars (map A (seq (S i) n)) [] L2). rewrite app_nil_r. exact H2.
Qed.
Lemma big_S' A i n : entl [A i; big A (S i) n] [big A i (S n)].
Proof.
  intros L H. unfold big in *. cbn [seq map]. apply (holds_stars (A i :: map A (seq (S i) n)) [] L).
  rewrite app_nil_r. apply holds_cons in H. destruct H as (L1 & L2 & Hp & H1 & H2). apply holds_cons.
  exists L1, L2. split; [exact Hp|]. split; [exact H1|]. apply (holds_stars (map A (seq (S i) n)) [] L2) in H2. rewrite app_nil_r in H2. exact H2.
Qed.
Lemma big_O A i : entl [big A i 0] [].
Proof. intros L H. apply (holds_stars [] [] L) in H. exact H. Qed.
Lemma big_O' A i : entl [] [big A i 0].
Proof. intros L H. apply (holds_stars [] [] L). exact H. Qed.

Lemma big_mono A B i n : (forall j, i <= j < i + n -> entl [A j] [B j]) -> entl [big A i n] [big B i n].
Proof.
  revert i. induction n as [|n IH]; intros i H; [apply (entl_trans _ []); [apply big_O|apply big_O']|].
  apply (entl_trans _ [A i; big A (S i) n]); [apply big_S|].
  apply (entl_trans _ [B i; big B (S i) n]); [|apply big_S'].
  apply (entl_app [A i] [big A (S i) n] [B i] [big B (S i) n]); [apply H; lia|]. apply IH. intros j Hj. apply H. lia.
Qed.

Lemma big_add A i n k : entl [big A i (n + k)] [big A i n; big A (i + n) k].
Proof.
  intros L H. unfold big in *. rewrite seq_app, map_app in H.
  apply (holds_stars _ [] L) in H. rewrite app_nil_r in H.
  apply holds_app in H. destruct H as (L1 & L2 & Hp & H1 & H2). apply holds_stars.
  apply holds_app. exists L1, L2. split; [exact Hp|]. split; [exact H1|].
  apply (holds_stars _ [] L2). rewrite app_nil_r. exact H2.
Qed.
Lemma big_add' A i n k : entl [big A i n; big A (i + n) k] [big A i (n + k)].
Proof.
  intros L H. unfold big in *. rewrite seq_app, map_app. apply (holds_stars _ [] L). rewrite app_nil_r.
  apply holds_stars in H. apply holds_app in H. destruct H as (L1 & L2 & Hp & H1 & H2). apply holds_app.
  exists L1, L2. split; [exact Hp|]. split; [exact H1|].
  apply (holds_stars _ [] L2) in H2. rewrite app_nil_r in H2. exact H2.
Qed.

Lemma big_shift A i d n : entl [big A (d + i) n] [big (fun j => A (d + j)) i n].
Proof.
  intros L. unfold big.
  assert (H : map A (seq (d + i) n) = map (fun j => A (d + j)) (seq i n)).
  { revert i. induction n as [|n IH]; intros i; cbn [seq map]; [reflexivity|]. f_equal. rewrite <- IH. f_equal. f_equal. lia. }
  rewrite H. auto.
Qed.
Lemma big_shift' A i d n : entl [big (fun j => A (d + j)) i n] [big A (d + i) n].
Proof.
  intros L. unfold big.
  assert (H : map A (seq (d + i) n) = map (fun j => A (d + j)) (seq i n)).
  { revert i. induction n as [|n IH]; intros i; cbn [seq map]; [reflexivity|]. f_equal. rewrite <- IH. f_equal. f_equal. lia. }
  rewrite H. auto.
Qed.

(** Rows: [n] groups of [k]. *)
Lemma big_rows A n k : entl [big A 0 (n * k)] [big (fun t => big (fun j => A (t * k + j)) 0 k) 0 n].
Proof.
  induction n as [|n IH]; [apply (entl_trans _ []); [apply big_O|apply big_O']|].
  replace (S n * k) with (n * k + k) by lia. replace (S n) with (n + 1) by lia.
  apply (entl_trans _ [big A 0 (n * k); big A (0 + n * k) k]); [apply big_add|].
  apply (entl_trans _ [big (fun t => big (fun j => A (t * k + j)) 0 k) 0 n; big (fun t => big (fun j => A (t * k + j)) 0 k) (0 + n) 1]);
    [|apply big_add'].
  apply (entl_app [_] [_] [_] [_]); [exact IH|]. cbn [Nat.add].
  apply (entl_trans _ [big (fun j => A (n * k + j)) 0 k]).
  { pose proof (big_shift A 0 (n * k) k) as H. rewrite Nat.add_0_r in H. exact H. }
  intros L H. unfold big at 1. cbn [seq map]. apply (holds_stars [_] [] L). exact H.
Qed.
Lemma big_rows' A n k : entl [big (fun t => big (fun j => A (t * k + j)) 0 k) 0 n] [big A 0 (n * k)].
Proof.
  induction n as [|n IH]; [apply (entl_trans _ []); [apply big_O|apply big_O']|].
  replace (S n * k) with (n * k + k) by lia. replace (S n) with (n + 1) by lia.
  apply (entl_trans _ [big A 0 (n * k); big A (0 + n * k) k]); [|apply big_add'].
  apply (entl_trans _ [big (fun t => big (fun j => A (t * k + j)) 0 k) 0 n; big (fun t => big (fun j => A (t * k + j)) 0 k) (0 + n) 1]);
    [apply big_add|].
  apply (entl_app [_] [_] [_] [_]); [exact IH|]. cbn [Nat.add].
  apply (entl_trans _ [big (fun j => A (n * k + j)) 0 k]).
  2:{ pose proof (big_shift' A 0 (n * k) k) as H. rewrite Nat.add_0_r in H. exact H. }
  intros L H. unfold big at 1 in H. cbn [seq map] in H. exact (proj1 (holds_stars [_] [] L) H).
Qed.

(** ** Memory *)

Lemma wfm_perm L L' nx : Permutation L L' -> wfm L nx -> wfm L' nx.
Proof.
  intros H [A B C]. split.
  - apply (Permutation_NoDup (Permutation_map key H) A).
  - intros x Hx. apply B. apply (Permutation_in _ (Permutation_sym H) Hx).
  - intros b o c Hx. destruct (C b o c (Permutation_in _ (Permutation_sym H) Hx)) as (n & h & i & Hi & Ho).
    exists n, h, i. split; [apply (Permutation_in _ H Hi)|exact Ho].
Qed.

Definition tr {A} (pre : list hp) (f : M A) (post : A -> list hp) : Prop :=
  forall m F, mem_wf m -> holds (pre ++ [F]) (live m) ->
  exists v m', f m = Ok (v, m') /\ mem_wf m' /\ holds (post v ++ [F]) (live m').

Lemma tr_ret {A} (v : A) Q : tr (Q v) (ret v) Q.
Proof. intros m F W H. exists v, m. auto. Qed.

Lemma tr_bind {A B} P (f : M A) R (g : A -> M B) Q : tr P f R -> (forall v, tr (R v) (g v) Q) -> tr P (mbind f g) Q.
Proof.
  intros Hf Hg m F W H. destruct (Hf m F W H) as (v & m1 & E1 & W1 & H1).
  destruct (Hg v m1 F W1 H1) as (w & m2 & E2 & W2 & H2). exists w, m2. unfold mbind. rewrite E1. cbn [bind]. auto.
Qed.

Lemma tr_pre {A} P P' (f : M A) Q : entl P P' -> tr P' f Q -> tr P f Q.
Proof.
  intros He Hf m F W H. apply Hf; auto. revert H. apply (entl_app P [F] P' [F]); [exact He|apply entl_refl].
Qed.
Lemma tr_post {A} P (f : M A) Q Q' : tr P f Q -> (forall v, entl (Q v) (Q' v)) -> tr P f Q'.
Proof.
  intros Hf He m F W H. destruct (Hf m F W H) as (v & m' & E1 & W1 & H1). exists v, m'. split; [exact E1|].
  split; [exact W1|]. revert H1. apply (entl_app _ [F] _ [F]); [apply He|apply entl_refl].
Qed.

Lemma tr_frame {A} P (f : M A) Q R : tr P f Q -> tr (P ++ R) f (fun v => Q v ++ R).
Proof.
  intros Hf m F W H.
  assert (H' : holds (P ++ [stars (R ++ [F])]) (live m)).
  { rewrite <- app_assoc in H. apply holds_app in H. destruct H as (L1 & L2 & Hp & H1 & H2). apply holds_app.
    exists L1, L2. split; [exact Hp|]. split; [exact H1|]. apply (holds_stars (R ++ [F]) [] L2). rewrite app_nil_r. exact H2. }
  destruct (Hf m _ W H') as (v & m' & E1 & W1 & H1). exists v, m'. split; [exact E1|]. split; [exact W1|].
  rewrite <- app_assoc. apply holds_app in H1. destruct H1 as (L1 & L2 & Hp & H1 & H2). apply holds_app.
  exists L1, L2. split; [exact Hp|]. split; [exact H1|]. apply (holds_stars (R ++ [F]) [] L2) in H2. rewrite app_nil_r in H2. exact H2.
Qed.

(** One step of a sequence: the part [P] of [pre] is used. *)
Lemma tr_step {A B} pre P R (f : M A) Q (g : A -> M B) S :
  tr P f Q -> Permutation pre (P ++ R) -> (forall v, tr (Q v ++ R) (g v) S) -> tr pre (mbind f g) S.
Proof.
  intros Hf Hp Hg. apply (tr_pre _ (P ++ R)); [apply entl_perm; exact Hp|].
  apply (tr_bind _ _ (fun v => Q v ++ R)); [apply tr_frame; exact Hf|exact Hg].
Qed.
Lemma tr_last {A} pre P R (f : M A) Q S :
  tr P f Q -> Permutation pre (P ++ R) -> (forall v, entl (Q v ++ R) (S v)) -> tr pre f S.
Proof.
  intros Hf Hp Hg. apply (tr_pre _ (P ++ R)); [apply entl_perm; exact Hp|].
  apply (tr_post _ _ (fun v => Q v ++ R)); [apply tr_frame; exact Hf|exact Hg].
Qed.

Lemma tr_ex {A T} (X : T -> hp) P (f : M A) Q : (forall x, tr (X x :: P) f Q) -> tr (ex X :: P) f Q.
Proof. intros H m F W Hh. apply (holds_ex X (P ++ [F])) in Hh. destruct Hh as (x & Hh). apply (H x); auto. Qed.
Lemma tr_pure {A} (X : Prop) P (f : M A) Q : (X -> tr P f Q) -> tr (pure X :: P) f Q.
Proof. intros H m F W Hh. apply (holds_pure X (P ++ [F])) in Hh. destruct Hh as (x & Hh). apply (H x); auto. Qed.
Lemma tr_stars {A} l P (f : M A) Q : tr (l ++ P) f Q -> tr (stars l :: P) f Q.
Proof. intros H. apply (tr_pre _ (l ++ P)); [apply entl_stars_out|exact H]. Qed.

(** Loops. *)
Lemma tr_mfor {A} (body : nat -> A -> M A) (X Y : nat -> hp) (s : nat -> A) Inv n i0 :
  (forall i, i0 <= i < i0 + n -> tr (X i :: Inv) (body i (s i)) (fun r => pure (r = s (S i)) :: Y i :: Inv)) ->
  tr (big X i0 n :: Inv) (mfor n i0 body (s i0)) (fun r => pure (r = s (i0 + n)) :: big Y i0 n :: Inv).
Proof.
  revert i0. induction n as [|n IH]; intros i0 H.
  - cbn [mfor]. apply (tr_pre _ (pure (s i0 = s (i0 + 0)) :: big Y i0 0 :: Inv)); [|exact (tr_ret (s i0) (fun r => pure (r = s (i0 + 0)) :: big Y i0 0 :: Inv))].
    apply (entl_trans _ (big Y i0 0 :: Inv)); [|apply entl_pure_in; f_equal; lia].
    apply entl_head. apply (entl_trans _ []); [apply big_O|apply big_O'].
  - cbn [mfor]. apply (tr_pre _ ([X i0] ++ big X (S i0) n :: Inv)); [apply (entl_head_l _ [X i0; big X (S i0) n]); apply big_S|].
    apply (tr_step _ (X i0 :: Inv) [big X (S i0) n] _ (fun r => pure (r = s (S i0)) :: Y i0 :: Inv)).
    + apply H. lia.
    + cbn [app]. apply perm_skip. rewrite Permutation_app_comm. reflexivity.
    + intros v. cbn [app]. apply tr_pure. intros ->.
      apply (tr_last _ (big X (S i0) n :: Inv) [Y i0] _ (fun r => pure (r = s (S i0 + n)) :: big Y (S i0) n :: Inv)).
      * apply IH. intros i Hi. apply H. lia.
      * rewrite app_comm_cons. rewrite Permutation_app_comm. cbn [app]. apply perm_skip.
        rewrite (Permutation_app_comm Inv [Y i0]). reflexivity.
      * intros v. cbn [app]. replace (i0 + S n) with (S i0 + n) by lia. apply entl_cons.
        apply (entl_trans _ (Y i0 :: big Y (S i0) n :: Inv)).
        { apply entl_perm. change (big Y (S i0) n :: Inv ++ [Y i0]) with ((big Y (S i0) n :: Inv) ++ [Y i0]).
          rewrite Permutation_app_comm. reflexivity. }
        apply (entl_fold [Y i0; big Y (S i0) n]). apply big_S'.
Qed.

Lemma tr_mdo (body : nat -> M unit) (X Y : nat -> hp) Inv n :
  (forall i, i < n -> tr (X i :: Inv) (body i) (fun _ => Y i :: Inv)) ->
  tr (big X 0 n :: Inv) (mdo n body) (fun _ => big Y 0 n :: Inv).
Proof.
  intros H. unfold mdo. apply (tr_post _ _ (fun r => pure (r = tt) :: big Y 0 n :: Inv)).
  - apply (tr_mfor (fun i _ => body i) X Y (fun _ => tt) Inv n 0). intros i Hi.
    apply (tr_post _ _ (fun _ => Y i :: Inv)); [apply H; lia|]. intros []. apply entl_pure_in. reflexivity.
  - intros v L HL. apply holds_pure in HL. apply HL.
Qed.

(** A loop that may be left: then some part is as before. *)
Lemma tr_mfor_exit (body : nat -> M bool) (X Y Z : nat -> hp) Inv n i0 (U : list hp) :
  (forall i, i0 <= i < i0 + n ->
     tr (X i :: Inv) (body i) (fun go => if go : bool then Y i :: Inv else Z i :: U)) ->
  (forall i, i0 <= i < i0 + n -> entl [X i] [Z i]) -> (forall i, i0 <= i < i0 + n -> entl [Y i] [Z i]) ->
  tr (big X i0 n :: Inv) (mfor_exit n i0 body) (fun go => if go : bool then big Y i0 n :: Inv else big Z i0 n :: U).
Proof.
  revert i0. induction n as [|n IH]; intros i0 H HX HY.
  - cbn [mfor_exit]. apply (tr_pre _ (big Y i0 0 :: Inv)).
    + apply entl_head. apply (entl_trans _ []); [apply big_O|apply big_O'].
    + exact (tr_ret true (fun go => if go : bool then big Y i0 0 :: Inv else big Z i0 0 :: U)).
  - cbn [mfor_exit]. apply (tr_pre _ ([X i0] ++ big X (S i0) n :: Inv)); [apply (entl_head_l _ [X i0; big X (S i0) n]); apply big_S|].
    apply (tr_step _ (X i0 :: Inv) [big X (S i0) n] _ (fun go => if go : bool then Y i0 :: Inv else Z i0 :: U)).
    + apply H. lia.
    + cbn [app]. apply perm_skip. rewrite Permutation_app_comm. reflexivity.
    + intros [|].
      * apply (tr_last _ (big X (S i0) n :: Inv) [Y i0] _ (fun go => if go : bool then big Y (S i0) n :: Inv else big Z (S i0) n :: U)).
        { apply IH; intros i Hi; [apply H|apply HX|apply HY]; lia. }
        { cbn [app]. change (Y i0 :: Inv ++ [big X (S i0) n]) with ((Y i0 :: Inv) ++ [big X (S i0) n]).
          rewrite Permutation_app_comm. cbn [app]. apply perm_skip. rewrite (Permutation_app_comm Inv [Y i0]). reflexivity. }
        intros [|].
        { cbn [app]. apply (entl_trans _ (Y i0 :: big Y (S i0) n :: Inv)).
          { apply entl_perm. change (big Y (S i0) n :: Inv ++ [Y i0]) with ((big Y (S i0) n :: Inv) ++ [Y i0]).
            rewrite Permutation_app_comm. reflexivity. }
          apply (entl_fold [Y i0; big Y (S i0) n]). apply big_S'. }
        { cbn [app]. apply (entl_trans _ (Y i0 :: big Z (S i0) n :: U)).
          { apply entl_perm. change (big Z (S i0) n :: U ++ [Y i0]) with ((big Z (S i0) n :: U) ++ [Y i0]).
            rewrite Permutation_app_comm. reflexivity. }
          apply (entl_trans _ (Z i0 :: big Z (S i0) n :: U)); [apply entl_head, HY; lia|].
          apply (entl_fold [Z i0; big Z (S i0) n]). apply big_S'. }
      * apply (tr_pre _ (big Z i0 (S n) :: U)); [|exact (tr_ret false (fun go => if go : bool then big Y i0 (S n) :: Inv else big Z i0 (S n) :: U))].
        cbn [app]. apply (entl_trans _ (Z i0 :: big X (S i0) n :: U)).
        { apply entl_cons, entl_perm. rewrite Permutation_app_comm. reflexivity. }
        apply (entl_trans _ (Z i0 :: big Z (S i0) n :: U)).
        { apply entl_cons, entl_head, big_mono. intros j Hj. apply HX. lia. }
        apply (entl_fold [Z i0; big Z (S i0) n]). apply big_S'.
Qed.

(** ** The operations *)

Definition at_ (b o : nat) (c : cell) : hp := one (Cel b o c).
Definition any (b o : nat) : hp := ex (fun c => at_ b o c).
Definition tok (b n : nat) (h : bool) : hp := one (Tok b n h).

Lemma at_any b o c : entl [at_ b o c] [any b o].
Proof. apply (entl_ex_in (fun c => at_ b o c) c []). Qed.

Lemma holds_one x l L : holds (one x :: l) L <-> exists L2, Permutation L (x :: L2) /\ holds l L2.
Proof.
  rewrite holds_cons. split.
  - intros (L1 & L2 & Hp & -> & H). exists L2. auto.
  - intros (L2 & Hp & H). exists [x], L2. split; [exact Hp|]. split; [reflexivity|exact H].
Qed.

Lemma holds_last F L : holds [F] L -> exists K, Permutation L K /\ F K.
Proof.
  intros H. apply holds_cons in H. destruct H as (L1 & L2 & Hp & H1 & H2). apply holds_nil in H2. subst L2.
  rewrite app_nil_r in Hp. exists L1. auto.
Qed.

Lemma NoDup_key_inj L x y : NoDup (map key L) -> In x L -> In y L -> key x = key y -> x = y.
Proof.
  intros Hn Hx Hy Hk. destruct (in_split _ _ Hx) as (a & b & ->). rewrite map_app in Hn. cbn [map] in Hn.
  apply NoDup_remove_2 in Hn. apply in_app_or in Hy. destruct Hy as [Hy|[Hy|Hy]]; [| exact Hy |].
  - exfalso. apply Hn, in_or_app. left. rewrite Hk. apply in_map. exact Hy.
  - exfalso. apply Hn, in_or_app. right. rewrite Hk. apply in_map. exact Hy.
Qed.

(** Allocation. *)
Lemma slots_holds b n c l L : holds l L -> holds (big (fun i => at_ b (8 * i) c) 0 (n / 8) :: l) (slots b n c ++ L).
Proof.
  intros H. unfold slots, big. apply holds_stars. generalize (seq 0 (n / 8)) as q. induction q as [|i q IH]; [exact H|].
  cbn [map app]. apply holds_one. eexists. split; [reflexivity|exact IH].
Qed.

Lemma tr_new n h c : tr [] (new_block n h c)
  (fun p => [ex (fun b => stars [pure (p = Loc b 0); tok b n h; big (fun i => at_ b (8 * i) c) 0 (n / 8)])]).
Proof.
  intros m F [[W1 W2 W3] Wg] H. unfold new_block. rewrite Wg, andb_false_r. set (b := next m).
  exists (Loc b 0), (mkMem (Tok b n h :: slots b n c ++ live m) (S b) (refuses m)). split; [reflexivity|]. cbn [live next]. split.
  1: split; [|exact Wg]; cbn [live next].
  - assert (Hs : forall x, In x (slots b n c) -> exists i, x = Cel b (8 * i) c /\ i < n / 8).
    { intros x Hx. apply in_map_iff in Hx. destruct Hx as (i & <- & Hi). apply in_seq in Hi. exists i. split; [reflexivity|lia]. }
    assert (Hf : forall x k, In x (live m) -> key x = (b, k) -> False).
    { intros x k Hx Hk. specialize (W2 x Hx). assert (bid x = b) by (destruct x; cbn in *; congruence). subst b. lia. }
    split.
    + cbn [map]. constructor.
      * rewrite map_app. intros Hi. apply in_app_or in Hi. destruct Hi as [Hi|Hi]; apply in_map_iff in Hi; destruct Hi as (x & Hk & Hx).
        -- destruct (Hs x Hx) as (i & -> & _). discriminate Hk.
        -- exact (Hf x _ Hx Hk).
      * rewrite map_app. unfold slots. rewrite map_map. cbn [key]. generalize (seq_NoDup (n / 8) 0). generalize (seq 0 (n / 8)) as q.
        induction q as [|i q IH]; intros Hq; [exact W1|]. cbn [map app]. inversion Hq; subst. constructor; [|auto].
        intros Hi. apply in_app_or in Hi. destruct Hi as [Hi|Hi]; apply in_map_iff in Hi; destruct Hi as (x & Hk & Hx).
        -- injection Hk as Hk. assert (x = i) by lia. subst x. contradiction.
        -- exact (Hf x _ Hx Hk).
    + intros x [<-|Hx]; [cbn; lia|]. apply in_app_or in Hx. destruct Hx as [Hx|Hx].
      * destruct (Hs x Hx) as (i & -> & _). cbn. lia.
      * specialize (W2 x Hx). subst b. lia.
    + intros b' o c' [Hx|Hx]; [discriminate Hx|]. apply in_app_or in Hx. destruct Hx as [Hx|Hx].
      * destruct (Hs _ Hx) as (i & Heq & Hi). injection Heq as -> -> ->. exists n, h, i. split; [left; reflexivity|auto].
      * destruct (W3 _ _ _ Hx) as (n' & h' & i & Hi & Ho). exists n', h', i. split; [right; apply in_or_app; right; exact Hi|exact Ho].
  - cbn [app]. apply holds_ex. exists b. apply holds_stars. cbn [app]. apply holds_pure. split; [reflexivity|].
    apply holds_one. eexists. split; [reflexivity|]. apply slots_holds. exact H.
Qed.

(** Release. *)
Lemma big_items b n l L : holds (big (fun i => any b (8 * i)) 0 n :: l) L ->
  exists K L2, Permutation L (K ++ L2) /\ holds l L2 /\ (forall x, In x K -> bid x = b) /\
    (forall i, i < n -> exists c, In (Cel b (8 * i) c) K).
Proof.
  intros H. unfold big in H. apply holds_stars in H.
  assert (G : forall q L, holds (map (fun i => any b (8 * i)) q ++ l) L ->
    exists K L2, Permutation L (K ++ L2) /\ holds l L2 /\ (forall x, In x K -> bid x = b) /\
      (forall i, In i q -> exists c, In (Cel b (8 * i) c) K)).
  { clear. induction q as [|i q IH]; intros L H.
    - exists [], L. split; [reflexivity|]. split; [exact H|]. split; intros x [].
    - cbn [map app] in H. apply holds_ex in H. destruct H as (c & H). apply holds_one in H. destruct H as (L2 & Hp & H).
      destruct (IH _ H) as (K & L3 & Hp' & Hl & HK & Hq). exists (Cel b (8 * i) c :: K), L3. split.
      { rewrite Hp, Hp'. reflexivity. }
      split; [exact Hl|]. split.
      + intros x [<-|Hx]; [reflexivity|auto].
      + intros j [<-|Hj]; [exists c; left; reflexivity|]. destruct (Hq j Hj) as (c' & Hc). exists c'. right. exact Hc. }
  destruct (G _ _ H) as (K & L2 & Hp & Hl & HK & Hq). exists K, L2. split; [exact Hp|]. split; [exact Hl|]. split; [exact HK|].
  intros i Hi. apply Hq, in_seq. lia.
Qed.

Lemma filter_all {A} (f : A -> bool) l : (forall x, In x l -> f x = true) -> filter f l = l.
Proof. induction l as [|a l IH]; intros H; [reflexivity|]. cbn [filter]. rewrite H by (left; auto). f_equal. apply IH. intros x Hx. apply H. right. exact Hx. Qed.
Lemma filter_none {A} (f : A -> bool) l : (forall x, In x l -> f x = false) -> filter f l = [].
Proof. induction l as [|a l IH]; intros H; [reflexivity|]. cbn [filter]. rewrite H by (left; auto). apply IH. intros x Hx. apply H. right. exact Hx. Qed.
Lemma filter_perm {A} (f : A -> bool) l l' : Permutation l l' -> Permutation (filter f l) (filter f l').
Proof.
  induction 1 as [|x l l' H IH|x y l|l l1 l2 H1 IH1 H2 IH2]; cbn [filter]; auto.
  - destruct (f x); auto.
  - destruct (f x), (f y); try reflexivity. apply perm_swap.
  - etransitivity; eassumption.
Qed.

Lemma of_block_bid b x : of_block b x = (bid x =? b).
Proof. destruct x; reflexivity. Qed.

Lemma tr_drop b n h : tr [tok b n h; big (fun i => any b (8 * i)) 0 (n / 8)] (drop_block b h) (fun _ => []).
Proof.
  intros m F [W Wg] H. cbn [app] in H. apply holds_one in H. destruct H as (L1 & Hp & H).
  destruct (big_items _ _ _ _ H) as (K & L2 & Hq & HF & HK & Hs).
  assert (Hl : Permutation (live m) ((Tok b n h :: K) ++ L2)) by (rewrite Hp, Hq; reflexivity).
  pose proof (wfm_perm _ _ _ Hl W) as W'. destruct W' as [V1 V2 V3].
  assert (Hno : forall x, In x L2 -> bid x <> b).
  { intros x Hx Hb. assert (Hk : forall y, In y (Tok b n h :: K) -> key y <> key x).
    { intros y Hy Hkk. rewrite map_app in V1. clear - V1 Hx Hy Hkk. induction (Tok b n h :: K) as [|z l IH]; [destruct Hy|].
      cbn [map app] in V1. inversion V1 as [|? ? Hn Hd]; subst. destruct Hy as [->|Hy]; [|auto].
      apply Hn, in_or_app. right. rewrite Hkk. apply in_map. exact Hx. }
    destruct x as [b' n' h'|b' o' c']; cbn [bid] in Hb; subst b'.
    - apply (Hk (Tok b n h)); [left; reflexivity|reflexivity].
    - destruct (V3 b o' c') as (n' & h' & i & Hi & Ho & Hlt); [apply in_or_app; right; exact Hx|].
      assert (Tok b n' h' = Tok b n h) as Heq.
      { apply (NoDup_key_inj _ _ _ V1); [exact Hi|apply in_or_app; left; left; reflexivity|reflexivity]. }
      injection Heq as -> ->. destruct (Hs i Hlt) as (c & Hc). apply (Hk (Cel b (8 * i) c)); [right; exact Hc|].
      cbn [key]. rewrite Ho. reflexivity. }
  assert (Hf : filter (fun x => negb (of_block b x)) ((Tok b n h :: K) ++ L2) = L2).
  { rewrite filter_app, (filter_none _ (Tok b n h :: K)), (filter_all _ L2); [reflexivity| |].
    - intros x Hx. rewrite of_block_bid. apply negb_true_iff, Nat.eqb_neq, Hno, Hx.
    - intros x Hx. rewrite of_block_bid. apply negb_false_iff, Nat.eqb_eq. destruct Hx as [<-|Hx]; [reflexivity|apply HK, Hx]. }
  unfold drop_block. destruct (existsb (is_tok b h) (live m)) eqn:He.
  2:{ exfalso. apply Bool.not_true_iff_false in He. apply He, existsb_exists. exists (Tok b n h). split.
      - apply (Permutation_in _ (Permutation_sym Hl)). left. reflexivity.
      - cbn. rewrite Nat.eqb_refl, Bool.eqb_reflx. reflexivity. }
  eexists tt, _. split; [reflexivity|]. cbn [live next].
  assert (Hfp : Permutation (filter (fun x => negb (of_block b x)) (live m)) L2) by (rewrite (filter_perm _ _ _ Hl), Hf; reflexivity).
  split.
  - split; [|exact Wg]. apply (wfm_perm L2); [symmetry; exact Hfp|]. split.
    + rewrite map_app in V1. clear - V1. induction (Tok b n h :: K) as [|x l IH]; [exact V1|]. apply IH. inversion V1; auto.
    + intros x Hx. apply V2, in_or_app. right. exact Hx.
    + intros b' o c Hx. destruct (V3 b' o c) as (n' & h' & i & Hi & Ho); [apply in_or_app; right; exact Hx|].
      exists n', h', i. split; [|exact Ho]. apply in_app_or in Hi. destruct Hi as [Hi|Hi]; [|exact Hi]. exfalso.
      apply (Hno _ Hx). cbn [bid]. destruct Hi as [Hi|Hi]; [injection Hi; auto|]. exact (HK _ Hi).
  - cbn [app]. apply (holds_perm _ L2); [symmetry; exact Hfp|exact HF].
Qed.

(** Reading and writing slots. *)
Lemma find_cel L b o c : NoDup (map key L) -> In (Cel b o c) L -> find (is_cel b o) L = Some (Cel b o c).
Proof.
  intros Hn Hi. destruct (find (is_cel b o) L) as [x|] eqn:Hf.
  - apply find_some in Hf. destruct Hf as [Hx Hc]. f_equal. destruct x as [|b' o' c']; [discriminate Hc|]. cbn [is_cel] in Hc.
    apply andb_true_iff in Hc. destruct Hc as [H1 H2]. apply Nat.eqb_eq in H1, H2. subst.
    apply (NoDup_key_inj L); auto.
  - exfalso. pose proof (find_none _ _ Hf _ Hi) as H. cbn in H. rewrite !Nat.eqb_refl in H. discriminate H.
Qed.

Lemma tr_load_cell b o c : tr [at_ b o c] (load_cell (Loc b o)) (fun c' => [pure (c' = c); at_ b o c]).
Proof.
  intros m F W H. pose proof W as [[W1 W2 W3] Wg]. exists c, m. split; [|split; [exact W|]].
  - unfold load_cell. apply holds_one in H. destruct H as (L2 & Hp & _). rewrite (find_cel _ b o c); auto.
    apply (Permutation_in _ (Permutation_sym Hp)). left. reflexivity.
  - cbn [app]. apply holds_pure. split; [reflexivity|exact H].
Qed.

Lemma tr_load b o p : tr [at_ b o (Ptr p)] (load (Loc b o)) (fun q => [pure (q = p); at_ b o (Ptr p)]).
Proof.
  unfold load. apply (tr_bind _ _ _ _ _ (tr_load_cell b o (Ptr p))). intros v. apply tr_pure. intros ->.
  apply (tr_pre _ [pure (p = p); at_ b o (Ptr p)]); [apply entl_pure_in; reflexivity|].
  exact (tr_ret p (fun q => [pure (q = p); at_ b o (Ptr p)])).
Qed.

Lemma tr_store b o c q : tr [at_ b o c] (store (Loc b o) q) (fun _ => [at_ b o (Ptr q)]).
Proof.
  intros m F [W Wg] H. cbn [app] in H. apply holds_one in H. destruct H as (L2 & Hp & HF).
  pose proof (wfm_perm _ _ _ Hp W) as [V1 V2 V3]. unfold store.
  set (g := fun x => if is_cel b o x then Cel b o (Ptr q) else x).
  assert (Hg : Permutation (map g (live m)) (Cel b o (Ptr q) :: L2)).
  { rewrite (Permutation_map g Hp). cbn [map]. unfold g at 1. cbn [is_cel]. rewrite !Nat.eqb_refl. cbn [andb].
    apply perm_skip. rewrite <- (map_id L2) at 2. erewrite map_ext_in; [reflexivity|]. intros x Hx. unfold g.
    destruct (is_cel b o x) eqn:Hc; [|reflexivity]. exfalso. destruct x as [|b' o' c']; [discriminate Hc|]. cbn in Hc.
    apply andb_true_iff in Hc. destruct Hc as [H1 H2]. apply Nat.eqb_eq in H1, H2. subst.
    cbn [map] in V1. inversion V1 as [|? ? Hn _]. apply Hn. exact (in_map key L2 (Cel b o c') Hx). }
  destruct (existsb (is_cel b o) (live m)) eqn:He.
  2:{ exfalso. apply Bool.not_true_iff_false in He. apply He, existsb_exists. exists (Cel b o c). split.
      - apply (Permutation_in _ (Permutation_sym Hp)). left. reflexivity.
      - cbn. rewrite !Nat.eqb_refl. reflexivity. }
  eexists tt, _. split; [reflexivity|]. cbn [live next]. split.
  - split; [|exact Wg]. apply (wfm_perm (Cel b o (Ptr q) :: L2)); [symmetry; exact Hg|]. split.
    + exact V1.
    + intros x [<-|Hx]; [exact (V2 (Cel b o c) (or_introl eq_refl))|apply V2; right; exact Hx].
    + intros b' o' c' Hx.
      assert (exists c'', In (Cel b' o' c'') (Cel b o c :: L2)) as (c'' & Hx').
      { destruct Hx as [Hx|Hx]; [injection Hx as -> -> _; exists c; left; reflexivity|exists c'; right; exact Hx]. }
      destruct (V3 _ _ _ Hx') as (n & h & i & Hi & Ho). exists n, h, i. split; [|exact Ho].
      destruct Hi as [Hi|Hi]; [discriminate Hi|right; exact Hi].
  - cbn [app]. apply holds_one. exists L2. auto.
Qed.

Lemma tr_use b n h o k : o + k <= n -> tr [tok b n h] (use (Loc b o) k) (fun _ => [tok b n h]).
Proof.
  intros Hk m F W H. exists tt, m. split; [|auto]. unfold use. apply holds_one in H. destruct H as (L2 & Hp & _).
  replace (existsb _ (live m)) with true; [reflexivity|]. symmetry. apply existsb_exists. exists (Tok b n h). split.
  - apply (Permutation_in _ (Permutation_sym Hp)). left. reflexivity.
  - rewrite Nat.eqb_refl. cbn [andb]. apply Nat.leb_le. exact Hk.
Qed.
