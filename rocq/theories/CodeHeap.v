(** Numbered regions of memory: a layout of regions that do not overlap, with contents. *)

From Coq Require Import List NArith Arith Bool Lia ZifyBool ZifyNat ZifyN.
From Verif Require Import Base Params Env Spec MiniC CodeLowMC CodeSpec BaseFacts MiniCFacts CodeRules CodeLowMCProofs.
Import ListNotations.

Lemma disj_sym p k q l : disj p k q l -> disj q l p k.
Proof. unfold disj. intros [H|[H|H]]; [left; congruence|right; right; exact H|right; left; exact H]. Qed.

Lemma chg_mono n m m' rs rs' : chg n m m' rs ->
  (forall p k, In (p, k) rs -> fst p < n -> exists p' k', In (p', k') rs' /\ fst p' = fst p /\ snd p' <= snd p /\ snd p + k <= snd p' + k') ->
  chg n m m' rs'.
Proof.
  intros H I b Hb. destruct (H b Hb) as [A B]. split; [exact A|]. intros i Hi. apply B. intros p k Hp Hf.
  destruct (I p k Hp ltac:(lia)) as (p' & k' & Hp' & F & S1 & S2). destruct (Hi p' k' Hp' ltac:(congruence)); lia.
Qed.

Record layout : Type := mkLayout { cnt : nat; reg : nat -> ptr; sz : nat -> nat }.
Definition regions (L : layout) : list (ptr * nat) := map (fun k => (reg L k, sz L k)) (seq 0 (cnt L)).
(** With one more region. *)
Definition push (L : layout) (p : ptr) (s : nat) : layout := mkLayout (S (cnt L)) (upd (reg L) (cnt L) p) (upd (sz L) (cnt L) s).

Lemma upd_eq {A} (f : nat -> A) x v : upd f x v x = v.
Proof. unfold upd. rewrite Nat.eqb_refl. reflexivity. Qed.
Lemma upd_neq {A} (f : nat -> A) x v y : y <> x -> upd f x v y = f y.
Proof. intros H. unfold upd. rewrite (proj2 (Nat.eqb_neq y x) H). reflexivity. Qed.

(** Contents with one entry replaced. *)
Definition cset (c : nat -> bytes) (k : nat) (l : bytes) : nat -> bytes := fun i => if i =? k then l else c i.
Lemma cset_eq c k l : cset c k l k = l.
Proof. unfold cset. rewrite Nat.eqb_refl. reflexivity. Qed.
Lemma cset_neq c k l i : i <> k -> cset c k l i = c i.
Proof. intros H. unfold cset. rewrite (proj2 (Nat.eqb_neq i k) H). reflexivity. Qed.

Lemma in_regions L p k : In (p, k) (regions L) <-> exists i, i < cnt L /\ p = reg L i /\ k = sz L i.
Proof.
  unfold regions. rewrite in_map_iff. split.
  - intros (i & E & Hi). apply in_seq in Hi. injection E as <- <-. exists i. split; [lia|auto].
  - intros (i & Hi & -> & ->). exists i. split; [reflexivity|]. apply in_seq. lia.
Qed.

Section H.
(** The memory to compare with. *)
Variables (n0 : nat) (m0 : memory).

Record lay_ok (L : layout) (n : nat) : Prop := {
  lay_n : n0 <= n;
  lay_in : forall k, k < cnt L -> fst (reg L k) < n;
  lay_apart : forall i j, i < cnt L -> j < cnt L -> i <> j -> disj (reg L i) (sz L i) (reg L j) (sz L j)
}.

Record heap (L : layout) (n : nat) (m : memory) (c : nat -> bytes) : Prop := {
  heap_lay : lay_ok L n;
  heap_pts : forall k, k < cnt L -> pts n m (reg L k) (c k);
  heap_len : forall k, k < cnt L -> length (c k) = sz L k;
  heap_ok : forall k, k < cnt L -> bytes_ok (c k);
  heap_chg : chg n0 m0 m (regions L)
}.

(** Stored in the first memory, and outside the regions. *)
Definition ro (L : layout) (q : ptr) (l : bytes) : Prop :=
  pts n0 m0 q l /\ forall k, k < cnt L -> disj (reg L k) (sz L k) q (length l).

Lemma heap_ext L n m c c' : heap L n m c -> (forall k, k < cnt L -> c' k = c k) -> heap L n m c'.
Proof. intros [A B C D F] H. split; auto; intros k Hk; rewrite H; auto. Qed.

Lemma heap_ro L n m c q l : heap L n m c -> ro L q l -> pts n m q l.
Proof.
  intros [[N _ _] _ _ _ C] [Hq D]. apply pts_weaken with (n := n0); [|exact N].
  apply (pts_chg n0 m0 m (regions L) q l C Hq). intros p k Hp. apply in_regions in Hp. destruct Hp as (i & Hi & -> & ->). apply D, Hi.
Qed.

Lemma heap_write L n m c k l m' : heap L n m c -> k < cnt L -> pts n m' (reg L k) l -> length l = sz L k -> bytes_ok l ->
  chg n m m' [(reg L k, sz L k)] -> heap L n m' (cset c k l).
Proof.
  intros [HL P1 P2 P3 C] Hk Hp Hl Hb Hc. split; auto.
  - intros i Hi. destruct (Nat.eq_dec i k) as [->|Hne]; [rewrite cset_eq; exact Hp|]. rewrite cset_neq by exact Hne.
    apply (pts_chg1 _ _ _ _ _ _ _ Hc (P1 i Hi)). rewrite P2 by exact Hi. apply HL; auto.
  - intros i Hi. destruct (Nat.eq_dec i k) as [->|Hne]; [rewrite cset_eq; exact Hl|]. rewrite cset_neq by exact Hne. auto.
  - intros i Hi. destruct (Nat.eq_dec i k) as [->|Hne]; [rewrite cset_eq; exact Hb|]. rewrite cset_neq by exact Hne. auto.
  - eapply chg_trans; [exact C|apply (chg_weaken n0 n m m' _ Hc); apply HL|auto|].
    intros x [<-|[]]. apply in_regions. exists k. auto.
Qed.

Lemma ro_push L n s q l : n0 <= n -> ro L q l -> ro (push L (n, 0) s) q l.
Proof.
  intros Hn [Hq D]. split; [exact Hq|]. cbn [cnt push reg sz]. intros k Hk. destruct (Nat.eq_dec k (cnt L)) as [->|Hne].
  - rewrite !upd_eq. left. destruct Hq as [Hq _]. cbn. lia.
  - rewrite !upd_neq by exact Hne. apply D. lia.
Qed.

Lemma heap_push L n m c b : heap L n m c -> bytes_ok b ->
  heap (push L (n, 0) (length b)) (S n) (upd m n b) (cset c (cnt L) b).
Proof.
  intros [[N I A] P1 P2 P3 C] Hb. split.
  - split; [lia| |]; cbn [cnt push reg sz].
    + intros k Hk. destruct (Nat.eq_dec k (cnt L)) as [->|Hne]; [rewrite upd_eq; cbn; lia|]. rewrite upd_neq by exact Hne. specialize (I k ltac:(lia)). lia.
    + intros i j Hi Hj Hij. destruct (Nat.eq_dec i (cnt L)) as [->|Hni], (Nat.eq_dec j (cnt L)) as [->|Hnj]; [congruence| | |].
      * rewrite !upd_eq, !upd_neq by exact Hnj. left. specialize (I j ltac:(lia)). cbn. lia.
      * rewrite !upd_eq, !upd_neq by exact Hni. left. specialize (I i ltac:(lia)). cbn. lia.
      * rewrite !upd_neq by assumption. apply A; lia.
  - cbn [cnt push reg]. intros k Hk. destruct (Nat.eq_dec k (cnt L)) as [->|Hne]; [rewrite !upd_eq, cset_eq; apply pts_local|].
    rewrite !upd_neq, cset_neq by exact Hne. apply pts_new, P1. lia.
  - cbn [cnt push sz]. intros k Hk. destruct (Nat.eq_dec k (cnt L)) as [->|Hne]; [rewrite !upd_eq, cset_eq; reflexivity|].
    rewrite !upd_neq, cset_neq by exact Hne. apply P2. lia.
  - cbn [cnt push]. intros k Hk. destruct (Nat.eq_dec k (cnt L)) as [->|Hne]; [rewrite cset_eq; exact Hb|].
    rewrite cset_neq by exact Hne. apply P3. lia.
  - intros k Hk. destruct (C k Hk) as [C1 C2]. rewrite upd_neq by lia. split; [exact C1|]. intros i Hi. apply C2.
    intros p q Hp. apply in_regions in Hp. destruct Hp as (j & Hj & -> & ->). apply Hi. apply in_regions. exists j. cbn [cnt push reg sz].
    split; [lia|]. rewrite !upd_neq by lia. auto.
Qed.

Lemma heap_pop L n m s c : lay_ok L n -> heap (push L (n, 0) s) (S n) m c -> heap L n (upd m n []) c.
Proof.
  intros HL [_ P1 P2 P3 C]. destruct HL as [N I A]. cbn [cnt push reg sz] in *. split; [split; auto| | | |].
  - intros k Hk. specialize (P1 k ltac:(lia)). rewrite upd_neq in P1 by lia. apply pts_drop; auto.
  - intros k Hk. specialize (P2 k ltac:(lia)). rewrite upd_neq in P2 by lia. exact P2.
  - intros k Hk. apply P3. lia.
  - intros k Hk. destruct (C k Hk) as [C1 C2]. rewrite upd_neq by lia. split; [exact C1|]. intros i Hi. apply C2.
    intros p q Hp Hf. apply in_regions in Hp. destruct Hp as (j & Hj & -> & ->). cbn [cnt push reg sz] in *.
    destruct (Nat.eq_dec j (cnt L)) as [->|Hne]; [rewrite upd_eq in Hf; cbn in Hf; lia|]. rewrite upd_neq in * by exact Hne.
    rewrite upd_neq by exact Hne. apply Hi; [|exact Hf]. apply in_regions. exists j. split; [lia|auto].
Qed.

(** ** Rules *)
Variable U : nat -> nat -> bytes.
Variable L : layout.

Lemma h_ld1 x p st c k j q (Q : state -> Prop) : heap L (nx st) (mm st) c -> k < cnt L -> reg L k = q ->
  peval (iv st) (pv st) p = Some (fst q, snd q + j) -> j < sz L k ->
  Q (set_dv st (upd (dv st) x (nth j (c k) 0%N))) -> runs U (Ld 1 x p) st Q.
Proof.
  intros H Hk <- Hp Hj HQ. destruct H as [_ P1 P2 _ _]. specialize (P1 k Hk). specialize (P2 k Hk). destruct (reg L k) as [b o]. cbn [fst snd] in Hp.
  eapply runs_ld; [exact Hp| |].
  - apply (valid_part _ _ b o (c k) j 1 1 P1); [lia|lia|apply Nat.mod_1_r].
  - rewrite (rdmem_part _ _ b o (c k) j 1 P1) by lia. rewrite word_of_1 by lia. exact HQ.
Qed.

Lemma h_st1 p e st c k j q (Q : state -> Prop) : heap L (nx st) (mm st) c -> k < cnt L -> reg L k = q ->
  peval (iv st) (pv st) p = Some (fst q, snd q + j) -> j < sz L k ->
  (forall m', heap L (nx st) m' (cset c k (list_set (c k) j (N.modulo (deval (iv st) (dv st) e) 256))) -> Q (set_mm st m')) ->
  runs U (St 1 p e) st Q.
Proof.
  intros H Hk <- Hp Hj HQ. pose proof H as [_ P1 P2 P3 _]. specialize (P1 k Hk). specialize (P2 k Hk). specialize (P3 k Hk).
  pose proof (heap_write L (nx st) (mm st) c k) as HW. destruct (reg L k) as [b o]. cbn [fst snd] in Hp.
  eapply runs_st; [exact Hp| |].
  - apply (valid_part _ _ b o (c k) j 1 1 P1); [lia|lia|apply Nat.mod_1_r].
  - change (bytes_of_word 1 (deval (iv st) (dv st) e)) with [N.modulo (deval (iv st) (dv st) e) 256].
    set (v := N.modulo (deval (iv st) (dv st) e) 256).
    destruct (wrmem_part (nx st) (mm st) (b, o) (c k) j [v] P1) as [C1 [C2 _]]; [cbn; lia|discriminate|]. cbn [fst snd length] in C1, C2.
    rewrite list_set_firstn in C1 by lia. rewrite P2 in C2. apply HQ. apply HW; auto.
    + rewrite length_list_set. exact P2.
    + apply Forall_list_set; [exact P3|]. unfold v, byte. pose proof (N.mod_lt (deval (iv st) (dv st) e) 256). lia.
Qed.

Lemma h_getBit x p i st c k (Q : state -> Prop) : heap L (nx st) (mm st) c -> k < cnt L ->
  peval (iv st) (pv st) p = Some (reg L k) -> ieval (iv st) i < 8 * sz L k ->
  Q (set_dv st (upd (dv st) x (b2n (bit (c k) (ieval (iv st) i))))) -> runs U (c_getBit x p i) st Q.
Proof.
  intros H Hk Hp Hi HQ. destruct H as [_ P1 P2 _ _]. apply (runs_getBit U x p i st (reg L k) (c k)); auto.
  rewrite P2 by exact Hk. apply lt_div8. exact Hi.
Qed.

Lemma h_setBit p i e st c k v (Q : state -> Prop) : heap L (nx st) (mm st) c -> k < cnt L ->
  peval (iv st) (pv st) p = Some (reg L k) -> ieval (iv st) i < 8 * sz L k ->
  N.modulo (deval (iv st) (dv st) e) 256 = b2n v ->
  (forall m', heap L (nx st) m' (cset c k (set_bit (c k) (ieval (iv st) i) v)) -> Q (set_mm st m')) ->
  runs U (c_setBit p i e) st Q.
Proof.
  intros H Hk Hp Hi Hv HQ. pose proof H as [_ P1 P2 P3 _]. apply (runs_setBit U p i e st (reg L k) (c k) v); auto.
  - rewrite P2 by exact Hk. apply lt_div8. exact Hi.
  - intros m' Hm Hc. rewrite P2 in Hc by exact Hk. apply HQ. apply (heap_write L _ (mm st)); auto.
    + rewrite length_set_bit. auto.
    + apply bytes_ok_set_bit. auto.
Qed.

(** A local array. *)
Lemma h_loc a k s st c (Q : state -> Prop) : locals_ok U -> heap L (nx st) (mm st) c ->
  (forall b, length b = ieval (iv st) k -> bytes_ok b ->
   runs U s (mkState (iv st) (dv st) (upd (pv st) a [(nx st, 0)]) (upd (mm st) (nx st) b) (S (nx st)) (S (ct st)))
     (fun y => exists c', heap (push L (nx st, 0) (ieval (iv st) k)) (S (nx st)) (mm y) c' /\
       forall m', heap L (nx st) m' c' -> Q (mkState (iv y) (dv y) (upd (pv y) a (pv st a)) m' (nx st) (ct y)))) ->
  runs U (Loc a k s) st Q.
Proof.
  intros HU H Hs. apply runs_loc. destruct (HU (ct st) (ieval (iv st) k)) as [L1 B1]. eapply runs_mono; [exact (Hs _ L1 B1)|].
  intros y (c' & Hy & HQ). apply HQ. apply (heap_pop L (nx st) (mm y) (ieval (iv st) k)); [apply H|exact Hy].
Qed.
End H.
