(** Layout of the arrays that [picnic_types.c] and [tree.c] carve from one allocation. *)

From Coq Require Import List NArith Arith Bool Lia Permutation.
From Verif Require Import Base Params Memory MemSpec Tree Alloc MemLogic MemRules MemObjects MemApi MemTop LayoutSpec.
Import ListNotations.

Local Open Scope nat_scope.

(** ** Items that an assertion contains *)

Definition has (x : item) (l : list hp) : Prop := forall L, holds l L -> In x L.
Lemma has_one x l : has x (one x :: l).
Proof. intros L H. apply holds_one in H. destruct H as (L2 & Hp & _). rewrite Hp. left. reflexivity. Qed.
Lemma has_skip x A l : has x l -> has x (A :: l).
Proof. intros H L HL. apply holds_cons in HL. destruct HL as (L1 & L2 & Hp & _ & H2). rewrite Hp. apply in_or_app. right. apply H, H2. Qed.
Lemma has_head x A l : has x [A] -> has x (A :: l).
Proof.
  intros H L HL. apply holds_cons in HL. destruct HL as (L1 & L2 & Hp & H1 & _). rewrite Hp. apply in_or_app. left. apply H.
  apply holds_cons. exists L1, []. rewrite app_nil_r. split; [reflexivity|]. split; [exact H1|]. apply holds_nil. reflexivity.
Qed.
Lemma has_stars x l l' : has x (l ++ l') -> has x (stars l :: l').
Proof. intros H L HL. apply H. apply holds_stars. exact HL. Qed.
Lemma has_in x A l : In A l -> has x [A] -> has x l.
Proof.
  induction l as [|B l IH]; [intros []|]. intros [->|Hi] H; [apply has_head, H|apply has_skip, IH; auto].
Qed.
Lemma has_big x A i a n : a <= i < a + n -> has x [A i] -> has x [big A a n].
Proof.
  intros Hi H. apply has_stars. rewrite app_nil_r. apply (has_in x (A i)); [|exact H]. apply in_map, in_seq. lia.
Qed.
Lemma has_ptrs ba oa bs os sz n i : i < n -> has (Cel ba (oa + 8 * i) (Ptr (Loc bs (os + i * sz)))) [ptrs ba oa bs os sz n].
Proof. intros Hi. apply (has_big _ _ i); [lia|]. apply has_one. Qed.

Lemma has_reads m b o q l : mem_wf m -> holds l (live m) -> has (Cel b o (Ptr q)) l -> reads m (Loc b o) q.
Proof.
  intros [[W _ _] _] Hh H. apply H in Hh. unfold reads, load, mbind, load_cell. rewrite (find_cel _ _ _ _ W Hh). reflexivity.
Qed.

(** ** Regions of one block in order *)

Fixpoint chain (b lo : nat) (l : list region) (hi : nat) : Prop :=
  match l with
  | [] => lo <= hi
  | (q, k) :: l' => exists o, q = Loc b o /\ lo <= o /\ chain b (o + k) l' hi
  end.
Lemma chain_le b l : forall lo hi lo' hi', chain b lo l hi -> lo' <= lo -> hi <= hi' -> chain b lo' l hi'.
Proof.
  induction l as [|(q & k) l IH]; intros lo hi lo' hi' H Hl Hh; cbn [chain] in *; [lia|].
  destruct H as (o & -> & H1 & H2). exists o. split; [reflexivity|]. split; [lia|]. apply (IH _ hi _ _ H2); lia.
Qed.
Lemma chain_app b l1 l2 : forall lo mid hi, chain b lo l1 mid -> chain b mid l2 hi -> chain b lo (l1 ++ l2) hi.
Proof.
  induction l1 as [|(q & k) l IH]; intros lo mid hi H1 H2; cbn [chain app] in *; [apply (chain_le _ _ _ _ _ _ H2); lia|].
  destruct H1 as (o & -> & H1 & H3). exists o. split; [reflexivity|]. split; [lia|]. apply (IH _ mid); auto.
Qed.
Lemma chain_concat b (g : nat -> list region) (f : nat -> nat) n : forall a,
  (forall i, a <= i < a + n -> chain b (f i) (g i) (f (S i))) -> chain b (f a) (concat (map g (seq a n))) (f (a + n)).
Proof.
  induction n as [|n IH]; intros a H; cbn [seq map concat]; [cbn [chain]; rewrite Nat.add_0_r; lia|].
  apply (chain_app _ _ _ _ (f (S a))); [apply H; lia|]. rewrite <- Nat.add_succ_comm. apply IH. intros i Hi. apply H. lia.
Qed.
Lemma chain_each b e o n k : (forall i, i < n -> e i = Loc b (o + i * k)) -> chain b o (each e n k) (o + n * k).
Proof.
  intros H. unfold each. replace (map (fun i => (e i, k)) (seq 0 n)) with (concat (map (fun i => [(e i, k)]) (seq 0 n))).
  2:{ generalize (seq 0 n). intros l. induction l as [|x l IH]; [reflexivity|]. cbn [map concat app]. rewrite IH. reflexivity. }
  pose proof (chain_concat b (fun i => [(e i, k)]) (fun i => o + i * k) n 0) as Hc. cbn [Nat.mul Nat.add] in Hc.
  rewrite Nat.add_0_r in Hc. apply Hc. intros i Hi. cbn [chain]. exists (o + i * k). split; [apply H; lia|]. lia.
Qed.
Lemma chain_each2 b e o n w k : (forall i j, i < n -> j < w -> e i j = Loc b (o + i * (w * k) + j * k)) ->
  chain b o (each2 e n w k) (o + n * (w * k)).
Proof.
  intros H. pose proof (chain_concat b (fun i => each (e i) w k) (fun i => o + i * (w * k)) n 0) as Hc. cbn [Nat.mul Nat.add] in Hc.
  rewrite Nat.add_0_r in Hc. apply Hc. intros i Hi.
  apply (chain_le _ _ (o + i * (w * k)) (o + i * (w * k) + w * k)); [|lia|lia]. apply chain_each. intros j Hj. apply H; lia.
Qed.

Lemma chain_inside b l : forall lo hi, chain b lo l hi ->
  lo <= hi /\ Forall (fun r => exists o, fst r = Loc b o /\ lo <= o /\ o + snd r <= hi) l.
Proof.
  induction l as [|(q & k) l IH]; intros lo hi H; cbn [chain] in H; [auto|].
  destruct H as (o & -> & H1 & H2). destruct (IH _ _ H2) as [H3 H4]. split; [lia|]. constructor.
  - exists o. cbn [fst snd]. split; [reflexivity|]. split; [lia|]. lia.
  - eapply Forall_impl; [|exact H4]. intros r (o' & Hr & Ha & Hb). exists o'. split; [exact Hr|]. lia.
Qed.
Lemma chain_apart b l : forall lo hi, chain b lo l hi -> ForallOrdPairs apart l.
Proof.
  induction l as [|(q & k) l IH]; intros lo hi H; cbn [chain] in H; [constructor|].
  destruct H as (o & -> & H1 & H2). destruct (chain_inside _ _ _ _ H2) as [_ H3]. constructor; [|apply (IH _ _ H2)].
  eapply Forall_impl; [|exact H3]. intros [r k'] (o' & Hr & Ha & Hb). cbn [fst snd] in *. subst r. unfold apart. cbn [fst snd]. lia.
Qed.

(** ** Several blocks *)

Lemma pairs_app {A} (R : A -> A -> Prop) l1 l2 : ForallOrdPairs R l1 -> ForallOrdPairs R l2 ->
  (forall x y, In x l1 -> In y l2 -> R x y) -> ForallOrdPairs R (l1 ++ l2).
Proof.
  intros H1 H2 Hx. induction H1 as [|x l Hf H1 IH]; cbn [app]; [exact H2|]. constructor.
  - apply Forall_app. split; [exact Hf|]. apply Forall_forall. intros y Hy. apply Hx; [left; reflexivity|exact Hy].
  - apply IH. intros y z Hy Hz. apply Hx; [right; exact Hy|exact Hz].
Qed.
Lemma pairs_perm {A} (R : A -> A -> Prop) l l' : (forall x y, R x y -> R y x) -> Permutation l l' ->
  ForallOrdPairs R l -> ForallOrdPairs R l'.
Proof.
  intros Hs Hp. induction Hp; intros H; auto.
  - inversion H; subst. constructor; [|auto]. eapply Permutation_Forall; eauto.
  - inversion H as [|? ? Hy Hl]; subst. inversion Hl as [|? ? Hx Hl']; subst. inversion Hy; subst.
    constructor; [constructor; auto|]. constructor; auto.
Qed.
Lemma apart_sym r s : apart r s -> apart s r.
Proof. unfold apart. destruct (fst r), (fst s); auto. intros [H|[H|H]]; auto. Qed.

Definition group : Type := nat * nat * list region.
Definition gblock (g : group) : nat := fst (fst g).
Definition gsize (g : group) : nat := snd (fst g).

Lemma groups_laid m m' (gs : list group) rs :
  (forall x, In x (live m) -> In x (live m')) -> NoDup (map gblock gs) ->
  Forall (fun g => In (Tok (gblock g) (gsize g) true) (live m') /\ (forall x, In x (live m) -> bid x <> gblock g) /\
    chain (gblock g) 0 (snd g) (gsize g)) gs ->
  Permutation (concat (map snd gs)) rs ->
  laid_out m m' rs.
Proof.
  intros Hk Hn Hg Hp. split; [exact Hk|].
  assert (Hb : forall r g, In g gs -> In r (snd g) -> exists o, fst r = Loc (gblock g) o /\ o + snd r <= gsize g).
  { intros r g Hi Hr. rewrite Forall_forall in Hg. destruct (Hg g Hi) as (_ & _ & Hc). destruct (chain_inside _ _ _ _ Hc) as [_ Hf].
    rewrite Forall_forall in Hf. destruct (Hf r Hr) as (o & H1 & _ & H2). exists o. auto. }
  assert (Hr : forall r, In r rs -> exists g, In g gs /\ In r (snd g)).
  { intros r Hr. rewrite <- Hp in Hr. apply in_concat in Hr. destruct Hr as (l & Hl & Hr). apply in_map_iff in Hl.
    destruct Hl as (g & <- & Hl). eauto. }
  split; [|split].
  - apply Forall_forall. intros r Hi. destruct (Hr r Hi) as (g & H1 & H2). destruct (Hb r g H1 H2) as (o & H3 & H4).
    unfold inside. rewrite H3. rewrite Forall_forall in Hg. destruct (Hg g H1) as (H5 & _). eauto.
  - apply Forall_forall. intros r Hi. destruct (Hr r Hi) as (g & H1 & H2). destruct (Hb r g H1 H2) as (o & H3 & H4).
    unfold fresh. rewrite H3. rewrite Forall_forall in Hg. apply (Hg g H1).
  - apply (pairs_perm _ _ _ apart_sym Hp). clear rs Hp Hr. induction gs as [|g gs IH]; cbn [map concat]; [constructor|].
    cbn [map] in Hn. inversion Hn as [|? ? Hn1 Hn2]; subst. inversion Hg as [|? ? Hg1 Hg2]; subst.
    apply pairs_app.
    + apply (chain_apart _ _ _ _ (proj2 (proj2 Hg1))).
    + apply IH; auto. intros r g' Hi. apply Hb. right. exact Hi.
    + intros r s Hr Hs. apply in_concat in Hs. destruct Hs as (l & Hl & Hs). apply in_map_iff in Hl. destruct Hl as (g' & <- & Hl).
      destruct (Hb r g (or_introl eq_refl) Hr) as (o & H1 & _). destruct (Hb s g' (or_intror Hl) Hs) as (o' & H2 & _).
      unfold apart. rewrite H1, H2. left. intros He. apply Hn1. rewrite He. apply in_map, Hl.
Qed.

Lemma nodup_split {A} (l1 l2 : list A) : NoDup (l1 ++ l2) -> NoDup l1 /\ forall x, In x l1 -> ~ In x l2.
Proof.
  induction l1 as [|x l1 IH]; cbn [app]; intros H; [split; [constructor|intros ? []]|].
  inversion H as [|? ? Hn H']; subst. destruct (IH H') as [H1 H2]. split.
  - constructor; [|exact H1]. intros Hi. apply Hn, in_or_app. auto.
  - intros y [<-|Hy]; [|apply H2, Hy]. intros Hi. apply Hn, in_or_app. auto.
Qed.

(** The blocks of an assertion. *)
Definition toks (bs : list (nat * nat)) : list hp := map (fun x => tok (fst x) (snd x) true) bs.

Lemma toks_facts m m' bs l : mem_wf m -> mem_wf m' -> holds l (live m') -> entl l (toks bs ++ [eq (live m); rest_]) ->
  (forall x, In x (live m) -> In x (live m')) /\ NoDup (map fst bs) /\
  (forall b n, In (b, n) bs -> In (Tok b n true) (live m') /\ forall x, In x (live m) -> bid x <> b).
Proof.
  intros W W' Hh He. apply He in Hh. clear He.
  assert (Hp : exists K, Permutation (live m') (map (fun x => Tok (fst x) (snd x) true) bs ++ live m ++ K)).
  { revert Hh. generalize (live m'). induction bs as [|(b & n) bs IH]; intros L Hh.
    - cbn [toks map app] in *. apply holds_cons in Hh. destruct Hh as (L1 & L2 & Hp & <- & _). exists L2. exact Hp.
    - cbn [toks map app] in Hh. apply holds_one in Hh. destruct Hh as (L2 & Hp & Hh). destruct (IH L2 Hh) as (K & HK). exists K.
      rewrite Hp. cbn [map app fst snd]. constructor. exact HK. }
  destruct Hp as (K & Hp). destruct W' as [[W1 _ _] _]. apply (Permutation_NoDup (Permutation_map key Hp)) in W1.
  split; [intros x Hx; rewrite Hp; apply in_or_app; right; apply in_or_app; left; exact Hx|]. split.
  - rewrite map_app, map_map in W1. cbn [key] in W1. apply nodup_split in W1. destruct W1 as [W1 _]. apply (NoDup_map_inv (fun b => (b, @None nat))).
    rewrite map_map. exact W1.
  - intros b n Hi. split; [rewrite Hp; apply in_or_app; left; apply (in_map (fun x => Tok (fst x) (snd x) true) bs (b, n)), Hi|].
    intros x Hx Hb.
    assert (Hk : exists n' h', In (Tok b n' h') (live m)).
    { destruct W as [[_ _ W3] _]. destruct x as [b' n' h'|b' o c]; cbn [bid] in Hb; subst b'; [eauto|]. destruct (W3 b o c Hx) as (n' & h' & _ & Hi' & _). eauto. }
    destruct Hk as (n' & h' & Hk). rewrite !map_app in W1. apply nodup_split in W1.
    refine (proj2 W1 (b, None) _ _).
    + rewrite map_map. apply (in_map (fun x => key (Tok (fst x) (snd x) true)) bs (b, n)), Hi.
    + apply in_or_app. left. change (b, @None nat) with (key (Tok b n' h')). apply in_map, Hk.
Qed.

Lemma interleave {A} (f : nat -> A) (g : nat -> list A) l :
  Permutation (concat (map (fun t => f t :: g t) l)) (map f l ++ concat (map g l)).
Proof.
  induction l as [|x l IH]; cbn [map concat app]; [constructor|]. constructor. rewrite IH.
  rewrite !app_assoc. apply Permutation_app_tail. apply Permutation_app_comm.
Qed.

(** From a triple to a memory. *)
Lemma tr_run {A} (f : M A) Q m : tr [] f Q -> mem_wf m ->
  exists v m', f m = Ok (v, m') /\ mem_wf m' /\ holds (Q v ++ [eq (live m)]) (live m').
Proof.
  intros H W. apply (H m (eq (live m)) W). cbn [app]. apply holds_cons. exists (live m), []. rewrite app_nil_r.
  split; [reflexivity|]. split; [reflexivity|]. apply holds_nil. reflexivity.
Qed.

Ltac hopen H := cbn [app] in H; repeat lazymatch type of H with
  | holds (ex _ :: _) _ => apply holds_ex in H; let x := fresh "b" in destruct H as [x H]
  | holds (stars _ :: _) _ => apply holds_stars in H; cbn [app] in H
  | holds (pure _ :: _) _ => apply holds_pure in H; let E := fresh "E" in destruct H as [E H]
  end.
Ltac locate_has := first [ apply has_one | apply has_skip; locate_has ].

(** ** Commitments and messages: a table of rows *)

Lemma rows_laid m m' k b bs sz n w T : 1 <= k -> n * 8 + n * sz = 8 * w -> mem_wf m -> mem_wf m' ->
  holds [tok b (T * (8 * k)) true; tab_s b bs k w T; tok bs (T * (n * sz + n * 8)) true; tab_p bs sz n w T; eq (live m)] (live m') ->
  exists a e, (forall t, t < T -> reads m' (Loc b 0 +p 8 * k * t) (a t)) /\
    (forall t j, t < T -> j < n -> reads m' (a t +p 8 * j) (e t j)) /\
    laid_out m m' ((Loc b 0, T * (8 * k)) :: each a T (8 * n) ++ each2 e T n sz).
Proof.
  intros Hk Hw W W' Hh. exists (fun t => Loc bs (8 * w * t)), (fun t j => Loc bs (8 * w * t + n * 8 + j * sz)).
  split; [|split].
  - intros t Ht. apply (has_reads _ _ _ _ _ W' Hh). apply has_skip, has_head, (has_big _ _ t); [lia|]. apply has_stars, has_one.
  - intros t j Ht Hj. apply (has_reads _ _ _ _ _ W' Hh). do 3 apply has_skip. apply has_head, (has_big _ _ t); [lia|].
    apply has_stars, has_head, has_ptrs. exact Hj.
  - destruct (toks_facts m m' [(b, T * (8 * k)); (bs, T * (n * sz + n * 8))] _ W W' Hh) as (H1 & H2 & H3).
    { cbn [toks map app fst snd]. eapply entl_take; [find1|]. eapply entl_take; [find1|]. eapply entl_take; [find1|]. apply entl_rest. }
    apply (groups_laid m m' [(b, T * (8 * k), [(Loc b 0, T * (8 * k))]); (bs, T * (n * sz + n * 8),
      concat (map (fun t => (Loc bs (8 * w * t), 8 * n) :: each (fun j => Loc bs (8 * w * t + n * 8 + j * sz)) n sz) (seq 0 T)))]); auto.
    + constructor; [|constructor; [|constructor]]; cbn [gblock gsize fst snd].
      * destruct (H3 b _ (or_introl eq_refl)) as [H4 H5]. split; [exact H4|]. split; [exact H5|].
        cbn [chain]. exists 0. split; [reflexivity|]. lia.
      * destruct (H3 bs _ (or_intror (or_introl eq_refl))) as [H4 H5]. split; [exact H4|]. split; [exact H5|].
        pose proof (chain_concat bs (fun t => (Loc bs (8 * w * t), 8 * n) :: each (fun j => Loc bs (8 * w * t + n * 8 + j * sz)) n sz)
          (fun t => 8 * w * t) T 0) as Hc. cbn [Nat.add] in Hc. rewrite Nat.mul_0_r in Hc.
        replace (T * (n * sz + n * 8)) with (8 * w * T) by nia. apply Hc. intros t Ht. cbn [chain].
        exists (8 * w * t). split; [reflexivity|]. split; [lia|].
        apply (chain_le _ _ (8 * w * t + n * 8) (8 * w * t + n * 8 + n * sz)); [|lia|nia]. apply chain_each. auto.
    + cbn [map snd concat app]. rewrite app_nil_r. constructor. apply interleave.
Qed.

Section P.
Variable P : paramset.
Let T := numMPCRounds P.
Let n := numMPCParties P.
Let dg := digestSizeBytes P.

Lemma commitments_pf k0 m : memP P -> mem_wf m ->
  let k := if k0 =? 0 then n else k0 in
  exists c m' a e, allocateCommitments P k0 m = Ok (c, m') /\
    (forall t, t < T -> reads m' (c +p 16 * t) (a t)) /\
    (forall t j, t < T -> j < k -> reads m' (a t +p 8 * j) (e t j)) /\
    laid_out m m' ((c, T * 16) :: each a T (8 * k) ++ each2 e T k dg).
Proof.
  intros [_ _ Hd] W k. destruct (tr_run _ _ m (tr_allocateCommitments P k0 Hd) W) as (c & m' & He & W' & Hh).
  unfold COMMITS in Hh. hopen Hh. subst c.
  destruct (rows_laid m m' 2 b b0 dg k (cw P k) T ltac:(lia) (cw_eq P k Hd) W W' Hh) as (a & e & H1 & H2 & H3).
  exists (Loc b 0), m', a, e. auto.
Qed.

Lemma msgs_pf m : memP3 P -> mem_wf m ->
  exists c m' a e, allocateMsgs P m = Ok (c, m') /\
    (forall t, t < T -> reads m' (c +p 24 * t) (a t)) /\
    (forall t j, t < T -> j < n -> reads m' (a t +p 8 * j) (e t j)) /\
    laid_out m m' ((c, T * 24) :: each a T (8 * n) ++ each2 e T n (andSizeBytes P)).
Proof.
  intros [_ Hd _ _ _ _] W. destruct (tr_run _ _ m (tr_allocateMsgs P Hd) W) as (c & m' & He & W' & Hh).
  unfold MSGS in Hh. hopen Hh. subst c.
  destruct (rows_laid m m' 3 b b0 (andSizeBytes P) n (mw P) T ltac:(lia) (mw_eq P Hd) W W' Hh) as (a & e & H1 & H2 & H3).
  exists (Loc b 0), m', a, e. auto.
Qed.

(** ** Seeds *)

Let sz := seedSizeBytes P.
Let salt := saltSizeBytes P.

Lemma seeds_pf m : memP P -> mem_wf m ->
  exists c m' a e s, allocateSeeds P m = Ok (c, m') /\
    (forall t, t < T -> reads m' (c +p 16 * t) (a t)) /\
    (forall t j, t < T -> j < n -> reads m' (a t +p 8 * j) (e t j)) /\
    (forall t, t <= T -> reads m' (c +p (16 * t + 8)) (s t)) /\
    (forall t j, t < T -> j < n -> e t j = e 0 0 +p (t * n + j) * sz) /\
    (forall t, t < T -> s t = s 0 +p t * sz) /\
    s T = (if n =? 3 then e 0 0 +p T * n * sz else s 0 +p T * sz) /\
    laid_out m m' ((c, (T + 1) * 16) :: each a T (8 * n) ++ each2 e T n sz ++ each s T sz ++ [(s T, salt)]).
Proof.
  intros [HT _ _] W. fold T in HT. destruct (tr_run _ _ m (tr_allocateSeeds P) W) as (c & m' & He & W' & Hh).
  unfold SEEDS, blkc in Hh. fold T n sz salt in Hh. hopen Hh. subst c. rename b0 into b1, b1 into b2, b2 into b3.
  set (sl := if n =? 3 then Loc b1 (T * (n * sz)) else Loc b3 (T * sz)) in *.
  set (s := fun t => if t <? T then Loc b3 (t * sz) else sl).
  assert (Hs : forall t, t < T -> s t = Loc b3 (t * sz)) by (intros t Ht; unfold s; apply Nat.ltb_lt in Ht; rewrite Ht; reflexivity).
  assert (HsT : s T = sl) by (unfold s; rewrite Nat.ltb_irrefl; reflexivity).
  exists (Loc b 0), m', (fun t => Loc b2 (t * (n * 8))), (fun t j => Loc b1 (t * (n * sz) + j * sz)), s.
  split; [exact He|]. split; [|split; [|split; [|split; [|split; [|split]]]]].
  - intros t Ht. apply (has_reads _ _ _ _ _ W' Hh). apply has_skip, has_head, (has_big _ _ t); [lia|]. apply has_stars, has_one.
  - intros t j Ht Hj. apply (has_reads _ _ _ _ _ W' Hh). apply has_skip, has_head, (has_big _ _ t); [lia|].
    apply has_stars. do 2 apply has_skip. apply has_head. apply has_ptrs. exact Hj.
  - intros t Ht. destruct (Nat.eq_dec t T) as [->|Hn].
    + rewrite HsT. apply (has_reads _ _ _ _ _ W' Hh). do 3 apply has_skip. apply has_one.
    + rewrite Hs by lia. apply (has_reads _ _ _ _ _ W' Hh). apply has_skip, has_head, (has_big _ _ t); [lia|].
      apply has_stars, has_skip, has_one.
  - intros t j _ _. cbn [plus]. f_equal. lia.
  - intros t Ht. rewrite !Hs by lia. cbn [plus Nat.mul Nat.add]. reflexivity.
  - rewrite HsT, Hs by lia. unfold sl. destruct (n =? 3); cbn [plus]; f_equal; lia.
  - destruct (toks_facts m m' [(b, (T + 1) * 16); (b1, T * n * sz + salt); (b2, T * n * 8 + 8 + T * 8); (b3, T * sz + salt)] _ W W' Hh)
      as (H1 & H2 & H3).
    { cbn [toks map app fst snd]. eapply entl_take; [find1|]. front (stars [tok b1 (T * n * sz + salt) true; raw b1 0 ((T * n * sz + salt) / 8)]).
      apply entl_stars_l. cbn [app]. front (stars [tok b3 (T * sz + salt) true; raw b3 0 ((T * sz + salt) / 8)]). apply entl_stars_l. cbn [app].
      do 4 (eapply entl_take; [find1|]). apply entl_rest. }
    assert (C1 : chain b1 0 (each2 (fun t j => Loc b1 (t * (n * sz) + j * sz)) T n sz) (T * n * sz)).
    { apply (chain_le _ _ 0 (0 + T * (n * sz))); [|lia|lia]. apply chain_each2. intros i j _ _. f_equal. }
    assert (C2 : chain b2 0 (each (fun t => Loc b2 (t * (n * 8))) T (8 * n)) (T * n * 8 + 8 + T * 8)).
    { apply (chain_le _ _ 0 (0 + T * (8 * n))); [|lia|lia]. apply chain_each. intros i _. f_equal. lia. }
    assert (C3 : chain b3 0 (each s T sz) (T * sz)).
    { apply (chain_le _ _ 0 (0 + T * sz)); [|lia|lia]. apply chain_each. intros i Hi. rewrite Hs by exact Hi. f_equal. }
    apply (groups_laid m m' [(b, (T + 1) * 16, [(Loc b 0, (T + 1) * 16)]);
      (b1, T * n * sz + salt, each2 (fun t j => Loc b1 (t * (n * sz) + j * sz)) T n sz ++ (if n =? 3 then [(s T, salt)] else []));
      (b2, T * n * 8 + 8 + T * 8, each (fun t => Loc b2 (t * (n * 8))) T (8 * n));
      (b3, T * sz + salt, each s T sz ++ (if n =? 3 then [] else [(s T, salt)]))]); auto.
    + constructor; [|constructor; [|constructor; [|constructor; [|constructor]]]]; cbn [gblock gsize fst snd].
      * destruct (H3 b _ (or_introl eq_refl)) as [H4 H5]. split; [exact H4|]. split; [exact H5|]. cbn [chain]. exists 0. split; [reflexivity|]. lia.
      * destruct (H3 b1 _ (or_intror (or_introl eq_refl))) as [H4 H5]. split; [exact H4|]. split; [exact H5|].
        apply (chain_app _ _ _ _ (T * n * sz)); [exact C1|]. rewrite HsT. unfold sl. destruct (n =? 3); cbn [chain]; [|lia].
        exists (T * (n * sz)). split; [reflexivity|]. lia.
      * destruct (H3 b2 _ (or_intror (or_intror (or_introl eq_refl)))) as [H4 H5]. split; [exact H4|]. split; [exact H5|exact C2].
      * destruct (H3 b3 _ (or_intror (or_intror (or_intror (or_introl eq_refl))))) as [H4 H5]. split; [exact H4|]. split; [exact H5|].
        apply (chain_app _ _ _ _ (T * sz)); [exact C3|]. rewrite HsT. unfold sl. destruct (n =? 3); cbn [chain]; [lia|].
        exists (T * sz). split; [reflexivity|]. lia.
    + cbn [map snd concat app]. constructor. rewrite app_nil_r. generalize (each2 (fun t j => Loc b1 (t * (n * sz) + j * sz)) T n sz).
      generalize (each (fun t => Loc b2 (t * (n * 8))) T (8 * n)), (each s T sz). intros l2 l3 l1.
      destruct (n =? 3); rewrite ?app_nil_r.
      * rewrite <- app_assoc. transitivity (l1 ++ l2 ++ l3 ++ [(s T, salt)]).
        -- apply Permutation_app_head. cbn [app]. rewrite app_assoc. apply Permutation_cons_append.
        -- rewrite !app_assoc. do 2 apply Permutation_app_tail. apply Permutation_app_comm.
      * rewrite !app_assoc. do 2 apply Permutation_app_tail. apply Permutation_app_comm.
Qed.

(** ** Inputs *)

Lemma inputs_pf m : mem_wf m ->
  exists c m' e, allocateInputs P m = Ok (c, m') /\
    (forall t, t < T -> reads m' (c +p 8 * t) (e t)) /\
    laid_out m m' ((c, T * 8) :: each e T (4 * stateSizeWords P)).
Proof.
  intros W. destruct (tr_run _ _ m (tr_allocateInputs P) W) as (c & m' & He & W' & Hh).
  unfold INPUTS in Hh. fold T in Hh. hopen Hh. subst c. set (sw := stateSizeWords P) in *.
  exists (Loc b 0), m', (fun t => Loc b (T * 8 + t * (sw * 4))). split; [exact He|]. split.
  - intros t Ht. apply (has_reads _ _ _ _ _ W' Hh). apply has_skip, has_head. apply (has_ptrs b 0). exact Ht.
  - destruct (toks_facts m m' [(b, T * (sw * 4 + 8))] _ W W' Hh) as (H1 & H2 & H3).
    { cbn [toks map app fst snd]. do 2 (eapply entl_take; [find1|]). apply entl_rest. }
    apply (groups_laid m m' [(b, T * (sw * 4 + 8), (Loc b 0, T * 8) :: each (fun t => Loc b (T * 8 + t * (sw * 4))) T (4 * sw))]); auto.
    + constructor; [|constructor]; cbn [gblock gsize fst snd]. destruct (H3 b _ (or_introl eq_refl)) as [H4 H5].
      split; [exact H4|]. split; [exact H5|]. cbn [chain]. exists 0. split; [reflexivity|]. split; [lia|].
      apply (chain_le _ _ (T * 8) (T * 8 + T * (4 * sw))); [|lia|lia]. apply chain_each. intros i _. f_equal. lia.
    + cbn [map snd concat app]. rewrite app_nil_r. reflexivity.
Qed.

(** ** G commitments *)

Lemma gcommitments_pf m : mem_wf m -> is_UR (transf P) = true ->
  exists c m' e, allocateGCommitments P m = Ok (c, m') /\
    (forall t j, t < T -> j < 3 -> reads m' (c +p (24 * t + 8 * j)) (e t j)) /\
    laid_out m m' ((c, T * 24) :: each2 e T 3 (UnruhGWithInputBytes P)).
Proof.
  intros W HU. destruct (tr_run _ _ m (tr_allocateGCommitments P) W) as (c & m' & He & W' & Hh).
  assert (Ht : transf P = TRANSFORM_UR) by (destruct (transf P); [discriminate HU|reflexivity|discriminate HU]).
  unfold GCOMS, GROWS, blkc in Hh. rewrite Ht in Hh. fold T in Hh. hopen Hh. subst c. rename b0 into bs. set (ug := UnruhGWithInputBytes P) in *.
  exists (Loc b 0), m', (fun t j => Loc bs (3 * t * ug + j * ug)). split; [exact He|]. split.
  - intros t j Ht' Hj. apply (has_reads _ _ _ _ _ W' Hh). apply has_skip, has_head, (has_big _ _ t); [lia|]. apply has_ptrs. exact Hj.
  - destruct (toks_facts m m' [(b, T * 24); (bs, ug * T * 3)] _ W W' Hh) as (H1 & H2 & H3).
    { cbn [toks map app fst snd]. eapply entl_take; [find1|]. front (stars [tok bs (ug * T * 3) true; raw bs 0 (ug * T * 3 / 8)]).
      apply entl_stars_l. cbn [app]. do 2 (eapply entl_take; [find1|]). apply entl_rest. }
    apply (groups_laid m m' [(b, T * 24, [(Loc b 0, T * 24)]); (bs, ug * T * 3, each2 (fun t j => Loc bs (3 * t * ug + j * ug)) T 3 ug)]); auto.
    + constructor; [|constructor; [|constructor]]; cbn [gblock gsize fst snd].
      * destruct (H3 b _ (or_introl eq_refl)) as [H4 H5]. split; [exact H4|]. split; [exact H5|]. cbn [chain]. exists 0. split; [reflexivity|]. lia.
      * destruct (H3 bs _ (or_intror (or_introl eq_refl))) as [H4 H5]. split; [exact H4|]. split; [exact H5|].
        apply (chain_le _ _ 0 (0 + T * (3 * ug))); [|lia|lia]. apply chain_each2. intros i j _ _. f_equal. lia.
    + cbn [map snd concat app]. rewrite app_nil_r. reflexivity.
Qed.

(** ** Random tapes *)

Lemma tape_pf m b o c : mem_wf m -> In (Cel b o c) (live m) ->
  exists m' a e, allocateRandomTape P (Loc b o) m = Ok (tt, m') /\
    reads m' (Loc b o) a /\ (forall j, j < n -> reads m' (a +p 8 * j) (e j)) /\
    (forall x, In x (live m) -> x = Cel b o c \/ In x (live m')) /\
    Forall (inside m') ((a, 8 * n) :: each e n (2 * andSizeBytes P)) /\
    Forall (fresh m) ((a, 8 * n) :: each e n (2 * andSizeBytes P)) /\
    ForallOrdPairs apart ((a, 8 * n) :: each e n (2 * andSizeBytes P)).
Proof.
  intros W Hi. destruct (in_split _ _ Hi) as (l1 & l2 & Hl).
  assert (Hp : Permutation (live m) (Cel b o c :: l1 ++ l2)) by (rewrite Hl; symmetry; apply Permutation_middle).
  set (m0 := mkMem (l1 ++ l2) (next m) (refuses m)).
  assert (W0 : mem_wf m0).
  { destruct W as [[W1 W2 W3] Wg]. split; [|exact Wg]. split; cbn [live next m0].
    - apply (Permutation_NoDup (Permutation_map key Hp)) in W1. inversion W1; auto.
    - intros x Hx. apply W2. rewrite Hp. right. exact Hx.
    - intros b' o' c' Hx. destruct (W3 b' o' c') as (k & h & i & Ht & H1 & H2); [rewrite Hp; right; exact Hx|]. exists k, h, i.
      split; [|auto]. rewrite Hp in Ht. destruct Ht as [Ht|Ht]; [discriminate Ht|exact Ht]. }
  assert (Hfr : forall r, fresh m0 r -> fresh m r).
  { intros [[|b' o'] k]; unfold fresh; cbn [fst]; [auto|]. intros H x Hx. rewrite Hp in Hx. destruct Hx as [<-|Hx]; [|apply H, Hx].
    destruct (wm_cel _ _ (proj1 W) b o c Hi) as (k' & h & i & Ht & _). rewrite Hp in Ht. destruct Ht as [Ht|Ht]; [discriminate Ht|].
    apply (H (Tok b k' h) Ht). }
  destruct (tr_allocateRandomTape P b o m (eq (live m0)) W) as (v & m' & He & W' & Hh).
  { cbn [app]. apply holds_cons. exists [Cel b o c], (l1 ++ l2). split; [exact Hp|]. split; [exists c; reflexivity|].
    apply holds_cons. exists (l1 ++ l2), []. rewrite app_nil_r. split; [reflexivity|]. split; [reflexivity|]. apply holds_nil. reflexivity. }
  destruct v. unfold TAPE, TAPES, blkc in Hh. fold n in Hh. hopen Hh. rename b0 into ba, b1 into bs. unfold getTapeSizeBytes in Hh.
  set (tz := 2 * andSizeBytes P) in *.
  exists m', (Loc ba 0), (fun j => Loc bs (j * tz)). split; [exact He|]. split; [|split].
  - apply (has_reads _ _ _ _ _ W' Hh). apply has_one.
  - intros j Hj. apply (has_reads _ _ _ _ _ W' Hh). apply has_skip, has_head, has_stars. apply has_skip, has_head. apply (has_ptrs ba 0 bs 0). exact Hj.
  - destruct (toks_facts m0 m' [(ba, n * 8); (bs, n * tz)] _ W0 W' Hh) as (H1 & H2 & H3).
    { cbn [toks map app fst snd]. 
      front (stars [tok ba (n * 8) true; ptrs ba 0 bs 0 tz n; stars [tok bs (n * tz) true; raw bs 0 (n * tz / 8)]]). apply entl_stars_l. cbn [app].
      front (stars [tok bs (n * tz) true; raw bs 0 (n * tz / 8)]). apply entl_stars_l. cbn [app].
      do 3 (eapply entl_take; [find1|]). apply entl_rest. }
    assert (HL : laid_out m0 m' ((Loc ba 0, 8 * n) :: each (fun j => Loc bs (j * tz)) n tz)).
    { apply (groups_laid m0 m' [(ba, n * 8, [(Loc ba 0, 8 * n)]); (bs, n * tz, each (fun j => Loc bs (j * tz)) n tz)]); auto.
      + constructor; [|constructor; [|constructor]]; cbn [gblock gsize fst snd].
        * destruct (H3 ba _ (or_introl eq_refl)) as [H4 H5]. split; [exact H4|]. split; [exact H5|]. cbn [chain]. exists 0. split; [reflexivity|]. lia.
        * destruct (H3 bs _ (or_intror (or_introl eq_refl))) as [H4 H5]. split; [exact H4|]. split; [exact H5|].
          apply (chain_le _ _ 0 (0 + n * tz)); [|lia|lia]. apply chain_each. auto.
      + cbn [map snd concat app]. rewrite app_nil_r. reflexivity. }
    destruct HL as (L1 & L2 & L3 & L4). split; [|split; [exact L2|split; [|exact L4]]].
    + intros x Hx. rewrite Hp in Hx. destruct Hx as [<-|Hx]; [left; reflexivity|right; apply L1, Hx].
    + eapply Forall_impl; [|exact L3]. exact Hfr.
Qed.

End P.

(** ** Trees *)

Lemma tree_pf l ds m : mem_wf m ->
  exists c m' a e, createTree_mem l ds m = Ok (c, m') /\
    reads m' (c +p 8) a /\ (forall i, i < tree_nodes l -> reads m' (a +p 8 * i) (e i)) /\
    laid_out m m' ((c, 56) :: (a, 8 * tree_nodes l) :: each e (tree_nodes l) ds).
Proof.
  intros W. destruct (tr_run _ _ m (tr_createTree l ds) W) as (c & m' & He & W' & Hh). set (N := tree_nodes l) in *.
  unfold TREE, TREEB, blkc in Hh. hopen Hh. subst c. rename b0 into ba, b1 into bs.
  exists (Loc b 0), m', (Loc ba 0), (fun i => Loc bs (i * ds)). split; [exact He|]. split; [|split].
  - apply (has_reads _ _ _ _ _ W' Hh). locate_has.
  - intros i Hi. apply (has_reads _ _ _ _ _ W' Hh). do 9 apply has_skip. apply has_head. apply (has_ptrs ba 0 bs 0). exact Hi.
  - destruct (toks_facts m m' [(b, 56); (ba, N * 8); (bs, N * ds)] _ W W' Hh) as (H1 & H2 & H3).
    { cbn [toks map app fst snd]. front (stars [tok bs (N * ds) true; raw bs 0 (N * ds / 8)]). apply entl_stars_l. cbn [app].
      do 4 (eapply entl_take; [find1|]). apply entl_rest. }
    apply (groups_laid m m' [(b, 56, [(Loc b 0, 56)]); (ba, N * 8, [(Loc ba 0, 8 * N)]); (bs, N * ds, each (fun i => Loc bs (i * ds)) N ds)]); auto.
    + constructor; [|constructor; [|constructor; [|constructor]]]; cbn [gblock gsize fst snd].
      * destruct (H3 b _ (or_introl eq_refl)) as [H4 H5]. split; [exact H4|]. split; [exact H5|]. cbn [chain]. exists 0. split; [reflexivity|]. lia.
      * destruct (H3 ba _ (or_intror (or_introl eq_refl))) as [H4 H5]. split; [exact H4|]. split; [exact H5|]. cbn [chain]. exists 0. split; [reflexivity|]. lia.
      * destruct (H3 bs _ (or_intror (or_intror (or_introl eq_refl)))) as [H4 H5]. split; [exact H4|]. split; [exact H5|].
        apply (chain_le _ _ 0 (0 + N * ds)); [|lia|lia]. apply chain_each. auto.
    + cbn [map snd concat app]. rewrite app_nil_r. reflexivity.
Qed.

Lemma commitments_p p P k0 m : get_param_set p = Some P -> mem_wf m ->
  let k := if k0 =? 0 then numMPCParties P else k0 in
  exists c m' a e, allocateCommitments P k0 m = Ok (c, m') /\
    (forall t, t < numMPCRounds P -> reads m' (c +p 16 * t) (a t)) /\
    (forall t j, t < numMPCRounds P -> j < k -> reads m' (a t +p 8 * j) (e t j)) /\
    laid_out m m' ((c, numMPCRounds P * 16) :: each a (numMPCRounds P) (8 * k) ++ each2 e (numMPCRounds P) k (digestSizeBytes P)).
Proof. intros HP. exact (commitments_pf P k0 m (get_memP p P HP)). Qed.

Lemma msgs_p p P m : get_param_set p = Some P -> is_picnic3 p = true -> mem_wf m ->
  exists c m' a e, allocateMsgs P m = Ok (c, m') /\
    (forall t, t < numMPCRounds P -> reads m' (c +p 24 * t) (a t)) /\
    (forall t j, t < numMPCRounds P -> j < numMPCParties P -> reads m' (a t +p 8 * j) (e t j)) /\
    laid_out m m' ((c, numMPCRounds P * 24) :: each a (numMPCRounds P) (8 * numMPCParties P) ++
      each2 e (numMPCRounds P) (numMPCParties P) (andSizeBytes P)).
Proof. intros HP H3. exact (msgs_pf P m (get_memP3 p P HP H3)). Qed.

Lemma seeds_p p P m : get_param_set p = Some P -> mem_wf m ->
  let T := numMPCRounds P in let n := numMPCParties P in let sz := seedSizeBytes P in
  exists c m' a e s, allocateSeeds P m = Ok (c, m') /\
    (forall t, t < T -> reads m' (c +p 16 * t) (a t)) /\
    (forall t j, t < T -> j < n -> reads m' (a t +p 8 * j) (e t j)) /\
    (forall t, t <= T -> reads m' (c +p (16 * t + 8)) (s t)) /\
    (forall t j, t < T -> j < n -> e t j = e 0 0 +p (t * n + j) * sz) /\
    (forall t, t < T -> s t = s 0 +p t * sz) /\
    s T = (if n =? 3 then e 0 0 +p T * n * sz else s 0 +p T * sz) /\
    laid_out m m' ((c, (T + 1) * 16) :: each a T (8 * n) ++ each2 e T n sz ++ each s T sz ++ [(s T, saltSizeBytes P)]).
Proof. intros HP. exact (seeds_pf P m (get_memP p P HP)). Qed.
