(** Linear operations on parts of regions: the first words of local arrays. *)

From Coq Require Import List NArith Arith Bool Lia ZifyBool ZifyNat ZifyN.
From Verif Require Import Base Params Env Spec LowMC Picnic3 MiniC CodeLowMC CodeP3 CodeSpec BaseFacts ParamFacts LowMCFacts
  MiniCFacts CodeRules CodeLowMCProofs CodeHeap CodeZkbProofs CodeZkbMpc CodeP3Proofs.
Import ListNotations.

Lemma pts_patch n m m' p l o s : pts n m p l -> o + length s <= length l ->
  pts n m' (fst p, snd p + o) s -> chg n m m' [((fst p, snd p + o), length s)] ->
  pts n m' p (blit_list l o s) /\ chg n m m' [(p, length l)].
Proof.
  intros [Hp H] Hl [_ A] B. cbn [fst snd] in A. split.
  - split; [exact Hp|]. intros i x Hx. unfold blit_list in Hx. rewrite nth_error_wr in Hx by exact Hl.
    destruct ((o <=? i) && (i <? o + length s)) eqn:Hc.
    + specialize (A _ _ Hx). rewrite <- A. f_equal. lia.
    + destruct (B (fst p) Hp) as [_ B']. rewrite B'.
      * apply H. exact Hx.
      * intros q k [E|[]] _. inversion E. cbn [fst snd]. lia.
  - apply (chg_sub _ _ _ _ _ p (length l) B); cbn [fst snd]; lia.
Qed.

Lemma pts_firstn n m p l k : pts n m p l -> pts n m p (firstn k l).
Proof.
  intros [A B]. split; [exact A|]. intros i x Hx. apply B. rewrite <- Hx, <- (firstn_skipn k l) at 1.
  apply nth_error_app1. apply nth_error_Some. congruence.
Qed.

Lemma eq_plus0 (q : ptr) : (fst q, snd q + 0) = q.
Proof. destruct q as [b o]. cbn [fst snd]. rewrite Nat.add_0_r. reflexivity. Qed.

Lemma disj_sub p k q l k' l' : disj p k q l -> k' <= k -> l' <= l -> disj p k' q l'.
Proof. unfold disj. intros [H|[H|H]] A B; [left; exact H|right; left; lia|right; right; lia]. Qed.

Lemma bytes_ok_of_word w : forall d, bytes_ok (bytes_of_word w d).
Proof.
  induction w as [|w IH]; intros d; cbn [bytes_of_word]; constructor; [|apply IH]. unfold byte. apply N.mod_lt. discriminate.
Qed.

Section Z.
Variables (n0 : nat) (m0 : memory) (U : nat -> nat -> bytes) (HU : locals_ok U).
Notation heap := (heap n0 m0).
Notation ro := (ro n0 m0).
Notation at_ := (at_ n0 m0).
Variable L : layout.

Lemma heap_patch n m c k o s m' : heap L n m c -> k < cnt L -> o + length s <= sz L k -> bytes_ok s ->
  pts n m' (fst (reg L k), snd (reg L k) + o) s -> chg n m m' [((fst (reg L k), snd (reg L k) + o), length s)] ->
  heap L n m' (cset c k (blit_list (c k) o s)).
Proof.
  intros H Hk Hl Bs Hp Hc. pose proof (heap_pts _ _ _ _ _ _ H k Hk) as Pk. pose proof (heap_len _ _ _ _ _ _ H k Hk) as Lk.
  destruct (pts_patch n m m' (reg L k) (c k) o s Pk ltac:(lia) Hp Hc) as [A B].
  apply (heap_write n0 m0 L n m); auto.
  - rewrite length_blit_list by lia. exact Lk.
  - apply bytes_ok_blit; [apply (heap_ok _ _ _ _ _ _ H k Hk)|exact Bs].
  - rewrite <- Lk. exact B.
Qed.

Lemma at_eqdisj n m c k q l len : heap L n m c -> k < cnt L -> at_ L c q l -> len <= sz L k -> len <= length l -> eqdisj (reg L k) q len.
Proof.
  intros H Hk [[_ D]|(j & Hj & -> & ->)] H1 H2.
  - right. apply (disj_sub _ _ _ _ _ _ (D k Hk)); auto.
  - destruct (Nat.eq_dec k j) as [->|Hne]; [left; reflexivity|]. right.
    apply (disj_sub _ _ _ _ _ _ (heap_disj _ _ _ _ _ _ _ _ H Hk Hj Hne)); [exact H1|]. rewrite <- (heap_len _ _ _ _ _ _ H j Hj). exact H2.
Qed.

Lemma h_xor_array po p1 p2 e y c k q1 q2 x1 x2 (Q : state -> Prop) : let len := ieval (iv y) e in
  peval (iv y) (pv y) po = Some (reg L k) -> peval (iv y) (pv y) p1 = Some q1 -> peval (iv y) (pv y) p2 = Some q2 ->
  k < cnt L -> 4 * len <= sz L k -> at_ L c q1 x1 -> at_ L c q2 x2 -> 4 * len <= length x1 -> 4 * len <= length x2 -> bytes_ok x1 -> bytes_ok x2 ->
  aligned (reg L k) -> aligned q1 -> aligned q2 -> heap L (nx y) (mm y) c ->
  (forall m' r, xor_array (c k) x1 x2 len = Ok r -> heap L (nx y) m' (cset c k r) -> Q (set_mm y m')) ->
  runs U (c_xor_array po p1 p2 e) y Q.
Proof.
  cbv zeta. set (len := ieval (iv y) e). intros Eo E1 E2 Hk Sk A1 A2 L1 L2 B1 B2 G0 G1 G2 H HQ.
  pose proof (heap_pts _ _ _ _ _ _ H k Hk) as Pk. pose proof (heap_len _ _ _ _ _ _ H k Hk) as Lk.
  apply (runs_xor_array U po p1 p2 e y (reg L k) q1 q2 (firstn (4 * len) (c k)) (firstn (4 * len) x1) (firstn (4 * len) x2)); auto; fold len.
  - rewrite firstn_length. lia.
  - rewrite firstn_length. lia.
  - rewrite firstn_length. lia.
  - apply Forall_firstn, B1.
  - apply Forall_firstn, B2.
  - apply pts_firstn, Pk.
  - apply pts_firstn, (at_pts n0 m0 L _ _ _ _ _ H A1).
  - apply pts_firstn, (at_pts n0 m0 L _ _ _ _ _ H A2).
  - apply (at_eqdisj _ _ _ _ _ _ _ H Hk A1); auto.
  - apply (at_eqdisj _ _ _ _ _ _ _ H Hk A2); auto.
  - intros m' Pm Cm. set (v := lxor_list _ _) in *.
    assert (Lv : length v = 4 * len) by (unfold v; rewrite length_lxor_list; rewrite !firstn_length; lia).
    apply (HQ m' (blit_list (c k) 0 v)).
    + apply xor_array_ok; lia.
    + apply (heap_patch (nx y) (mm y)); auto; [lia| |rewrite eq_plus0; exact Pm|rewrite eq_plus0, Lv; exact Cm].
      unfold v. apply bytes_ok_lxor; apply Forall_firstn; auto.
Qed.

Lemma h_memcpy_part p p' e y c k q x (Q : state -> Prop) : let n := ieval (iv y) e in
  peval (iv y) (pv y) p = Some (reg L k) -> peval (iv y) (pv y) p' = Some q -> k < cnt L -> q <> reg L k -> at_ L c q x -> bytes_ok x ->
  n <= sz L k -> n <= length x -> 0 < n -> heap L (nx y) (mm y) c ->
  (forall m', heap L (nx y) m' (cset c k (blit_list (c k) 0 (firstn n x))) -> Q (set_mm y m')) -> runs U (MemCpy p p' e) y Q.
Proof.
  cbv zeta. set (n := ieval (iv y) e). intros Ep Ep' Hk Hne A Bx Sk Lx Hn H HQ.
  pose proof (heap_pts _ _ _ _ _ _ H k Hk) as P1. pose proof (heap_len _ _ _ _ _ _ H k Hk) as L1.
  pose proof (at_pts n0 m0 L _ _ _ _ _ H A) as P2.
  eapply (runs_memcpy U _ _ _ (reg L k) q); [exact Ep|exact Ep'| | | |]; fold n.
  - apply (pts_valid (nx y) _ _ (c k)); auto; lia.
  - apply (pts_valid (nx y) _ _ x); auto; lia.
  - destruct (at_eqdisj _ _ _ _ _ _ n H Hk A Sk Lx) as [He|D]; [congruence|]. unfold separate, disj in *. lia.
  - rewrite (rdmem_pts (nx y) _ _ x) by (auto; lia).
    assert (Lf : length (firstn n x) = n) by (rewrite firstn_length; lia).
    destruct (wrmem_pts (nx y) (mm y) (reg L k) (firstn n x)) as [D1 D2].
    + apply P1.
    + rewrite Lf. pose proof (pts_bound _ _ _ _ P1 ltac:(intros Hc; rewrite Hc in L1; cbn in L1; lia)). lia.
    + apply HQ. apply (heap_patch (nx y) (mm y)); auto; [lia|apply Forall_firstn, Bx|rewrite eq_plus0; exact D1|rewrite eq_plus0; exact D2].
Qed.

Lemma h_memset0 p e y c k (Q : state -> Prop) : peval (iv y) (pv y) p = Some (reg L k) -> k < cnt L -> ieval (iv y) e = sz L k -> 0 < sz L k ->
  heap L (nx y) (mm y) c -> (forall m', heap L (nx y) m' (cset c k (zeros (sz L k))) -> Q (set_mm y m')) -> runs U (MemSet p 0 e) y Q.
Proof.
  intros Ep Hk Se Hs H HQ. pose proof (heap_pts _ _ _ _ _ _ H k Hk) as P1. pose proof (heap_len _ _ _ _ _ _ H k Hk) as L1.
  eapply runs_memset; [exact Ep| |]; rewrite Se.
  - apply (pts_valid (nx y) _ _ (c k)); auto; lia.
  - change (repeat 0%N (sz L k)) with (zeros (sz L k)).
    destruct (wrmem_pts (nx y) (mm y) (reg L k) (zeros (sz L k))) as [D1 D2].
    + apply P1.
    + rewrite length_zeros. pose proof (pts_bound _ _ _ _ P1 ltac:(intros Hc; rewrite Hc in L1; cbn in L1; lia)). lia.
    + apply HQ. rewrite length_zeros in D2. apply (heap_write n0 m0 L (nx y) (mm y)); auto; [apply length_zeros|apply bytes_ok_zeros].
Qed.

(** A word of [w] bytes in region [k]. *)
Lemma h_stw w p e y c k o (Q : state -> Prop) : peval (iv y) (pv y) p = Some (fst (reg L k), snd (reg L k) + o) -> k < cnt L -> 0 < w -> o + w <= sz L k ->
  (snd (reg L k) + o) mod w = 0 -> heap L (nx y) (mm y) c ->
  (forall m', heap L (nx y) m' (cset c k (blit_list (c k) o (bytes_of_word w (deval (iv y) (dv y) e)))) -> Q (set_mm y m')) -> runs U (St w p e) y Q.
Proof.
  intros Ep Hk Hw Ho Ha H HQ. pose proof (heap_pts _ _ _ _ _ _ H k Hk) as P1. pose proof (heap_len _ _ _ _ _ _ H k Hk) as L1.
  pose proof (length_bytes_of_word w (deval (iv y) (dv y) e)) as Lw. set (v := bytes_of_word w _) in *.
  eapply runs_st; [exact Ep| |]; fold v.
  - pose proof (pts_bound _ _ _ _ P1 ltac:(intros Hc; rewrite Hc in L1; cbn in L1; lia)) as B. unfold valid. cbn [fst snd]. rewrite Ha. cbn. lia.
  - destruct (wrmem_pts (nx y) (mm y) (fst (reg L k), snd (reg L k) + o) v) as [D1 D2].
    + apply P1.
    + cbn [fst snd]. rewrite Lw. pose proof (pts_bound _ _ _ _ P1 ltac:(intros Hc; rewrite Hc in L1; cbn in L1; lia)). lia.
    + apply HQ. apply (heap_patch (nx y) (mm y)); auto; [lia|]. unfold v. apply bytes_ok_of_word.
Qed.

(** A word of [w] bytes at offset [o] of something stored. *)
Lemma h_ldw w x p q o l y c (Q : state -> Prop) : peval (iv y) (pv y) p = Some (fst q, snd q + o) -> at_ L c q l -> 0 < w -> o + w <= length l ->
  (snd q + o) mod w = 0 -> heap L (nx y) (mm y) c ->
  Q (set_dv y (upd (dv y) x (word_of (firstn w (skipn o l))))) -> runs U (Ld w x p) y Q.
Proof.
  intros Ep A Hw Ho Ha H HQ. pose proof (at_pts n0 m0 L _ _ _ _ _ H A) as P1. destruct q as [b k]. cbn [fst snd] in *.
  eapply runs_ld; [exact Ep| |].
  - apply (valid_part _ _ b k l o w w P1); [lia|lia|exact Ha].
  - rewrite (rdmem_part _ _ b k l o w P1) by lia. exact HQ.
Qed.

Variables (E : env) (P : paramset).
Hypothesis HP : wfP P.
Hypothesis HE : env_bytes_ok E.
Let W := stateSizeWords P.

Lemma matrix_mul_long out s M r : bytes_ok out -> matrix_mul E P (firstn (4 * W) out) s M = Ok r -> 4 * W <= length out ->
  length r = 4 * W /\ matrix_mul E P out s M = Ok (blit_list out 0 r).
Proof.
  intros Bo Hr Lo. unfold matrix_mul in *. fold W in Hr |- *. destruct (blit _ _ _) as [t| | |]; try discriminate. rewrite bind_Ok in *.
  destruct (for_loop _ _ _ _) as [t1| | |]; try discriminate. rewrite bind_Ok in *. destruct (slice t1 0 (W * 4)) as [s1| | |] eqn:Es; try discriminate. rewrite bind_Ok in *.
  assert (Ls : length s1 = W * 4). { unfold slice in Es. destruct (0 + W * 4 <=? length t1) eqn:Hc; [|discriminate]. injection Es as <-. rewrite firstn_length. lia. }
  rewrite blit0_all in Hr by (rewrite firstn_length; lia). injection Hr as <-. split; [lia|]. apply blit_ok. lia.
Qed.

Lemma h_matrix_mul po p1 p2 y c k q1 q2 x M (Q : state -> Prop) :
  peval (iv y) (pv y) po = Some (reg L k) -> peval (iv y) (pv y) p1 = Some q1 -> peval (iv y) (pv y) p2 = Some q2 ->
  k < cnt L -> 4 * W <= sz L k -> at_ L c q1 x -> bytes_ok x -> stateSizeBits P <= 8 * length x -> aligned q1 ->
  ro L q2 M -> aligned q2 -> bytes_ok M -> length M = stateSizeBits P * (4 * W) -> heap L (nx y) (mm y) c ->
  (forall m' r u, matrix_mul E P (c k) x M = Ok r -> heap L (nx y) m' (cset c k r) -> Q (set_mc y m' u)) ->
  runs U (c_matrix_mul P po p1 p2) y Q.
Proof.
  intros Eo E1 E2 Hk Sk A1 Bx Lx G1 R2 G2 BM LM H HQ.
  pose proof (heap_pts _ _ _ _ _ _ H k Hk) as Pk. pose proof (heap_len _ _ _ _ _ _ H k Hk) as Lk. pose proof (heap_ok _ _ _ _ _ _ H k Hk) as Bk.
  apply (runs_matrix_mul U P HP HU E _ _ _ _ (reg L k) q1 q2 (firstn (4 * W) (c k)) x M); auto.
  - apply Forall_firstn, Bk.
  - rewrite firstn_length. fold W. lia.
  - apply pts_firstn, Pk.
  - apply (at_pts n0 m0 L _ _ _ _ _ H A1).
  - exact (heap_ro _ _ _ _ _ _ _ _ H R2).
  - intros m' u r Hm Pm Cm.
    pose proof (matrix_mul_spec E P HP (firstn (4 * W) (c k)) x M HE Bx BM Lx LM ltac:(rewrite firstn_length; fold W; lia)) as Sr. rewrite Hm in Sr. destruct Sr as (_ & Br & _).
    specialize (Br (Forall_firstn _ _ _ Bk)).
    destruct (matrix_mul_long (c k) x M r Bk Hm ltac:(lia)) as [Lr Hr]. apply (HQ m' _ u Hr).
    apply (heap_patch (nx y) (mm y)); auto; [lia|rewrite eq_plus0; exact Pm|rewrite eq_plus0, Lr; exact Cm].
Qed.
End Z.
