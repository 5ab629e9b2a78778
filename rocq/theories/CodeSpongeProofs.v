(** The sponge on memory: absorbing. *)

From Coq Require Import List NArith Arith Bool Lia ZifyBool ZifyNat ZifyN.
From Verif Require Import Base Params Env Spec MiniC CodeLowMC CodeKeccak CodeSpec Keccak KeccakSpec.
From Verif Require Import BaseFacts KeccakPerm KeccakSponge KeccakProofs MiniCFacts CodeRules CodeLowMCProofs CodeHeap CodeLanes CodeKeccakProofs.
Import ListNotations.

Lemma xor_at_snoc l x : forall s off, off + length l < length s ->
  xor_at s off (l ++ [x]) = list_set (xor_at s off l) (off + length l) (N.lxor (nth (off + length l) (xor_at s off l) 0%N) x).
Proof.
  induction l as [|y l IH]; intros s off H; cbn [xor_at app length] in *; [rewrite Nat.add_0_r; reflexivity|].
  rewrite IH by (rewrite length_list_set; lia). replace (S off + length l) with (off + S (length l)) by lia. reflexivity.
Qed.
Lemma firstn_snoc {A} (l : list A) i d : i < length l -> firstn (S i) l = firstn i l ++ [nth i l d].
Proof.
  revert l. induction i as [|i IH]; intros [|x l] H; cbn [length] in H; try lia; [reflexivity|].
  change (x :: firstn (S i) l = x :: firstn i l ++ [nth i l d]). f_equal. apply IH. lia.
Qed.

Lemma chg1_trans n m1 m2 m3 x : chg n m1 m2 [x] -> chg n m2 m3 [x] -> chg n m1 m3 [x].
Proof. intros A B. eapply chg_trans; [exact A|exact B|auto|auto]. Qed.

Lemma iters a : (a - 0 + (1 - 1)) / 1 = a.
Proof. rewrite Nat.div_1_r. lia. Qed.

Section M.
Variable U : nat -> nat -> bytes.
Hypothesis HU : locals_ok U.

(** One byte at [q + j]. *)
Lemma runs_ld1 x p st q l j (Q : state -> Prop) : pts (nx st) (mm st) q l -> j < length l ->
  peval (iv st) (pv st) p = Some (fst q, snd q + j) -> Q (set_dv st (upd (dv st) x (nth j l 0%N))) -> runs U (Ld 1 x p) st Q.
Proof.
  intros P1 Hj Hp HQ. destruct q as [b o]. cbn [fst snd] in Hp. eapply runs_ld; [exact Hp| |].
  - apply (valid_part _ _ b o l j 1 1 P1); [lia|lia|apply Nat.mod_1_r].
  - rewrite (rdmem_part _ _ b o l j 1 P1) by lia. rewrite word_of_1 by lia. exact HQ.
Qed.
Lemma runs_st1 p e st q l j (Q : state -> Prop) : pts (nx st) (mm st) q l -> j < length l ->
  peval (iv st) (pv st) p = Some (fst q, snd q + j) ->
  (forall m', pts (nx st) m' q (list_set l j (N.modulo (deval (iv st) (dv st) e) 256)) -> chg (nx st) (mm st) m' [(q, length l)] -> Q (set_mm st m')) ->
  runs U (St 1 p e) st Q.
Proof.
  intros P1 Hj Hp HQ. destruct q as [b o]. cbn [fst snd] in Hp. eapply runs_st; [exact Hp| |].
  - apply (valid_part _ _ b o l j 1 1 P1); [lia|lia|apply Nat.mod_1_r].
  - change (bytes_of_word 1 (deval (iv st) (dv st) e)) with [N.modulo (deval (iv st) (dv st) e) 256]. set (v := N.modulo _ 256) in *.
    destruct (wrmem_part (nx st) (mm st) (b, o) l j [v] P1) as [C1 [C2 _]]; [cbn; lia|discriminate|]. cbn [fst snd length] in C1, C2.
    apply HQ; [|exact C2]. rewrite (list_set_firstn l j v) in C1 by exact Hj. exact C1.
Qed.

Lemma runs_AddByte A b off y q s (Q : state -> Prop) : peval (iv y) (pv y) A = Some q -> pts (nx y) (mm y) q s -> wfs s ->
  ieval (iv y) off < 200 -> byte (deval (iv y) (dv y) b) ->
  (forall m' c', pts (nx y) m' q (list_set s (ieval (iv y) off) (N.lxor (nth (ieval (iv y) off) s 0%N) (deval (iv y) (dv y) b))) ->
     chg (nx y) (mm y) m' [(q, 200)] -> Q (set_mc y m' c')) ->
  runs U (c_AddByte A b off) y Q.
Proof.
  intros Hq Pq [Ls Bs] Ho Hb HQ. unfold c_AddByte. eapply runs_call; [cbn [pargevals pargeval pevals]; rewrite Hq; reflexivity|]. cbn [map]. set (o := ieval (iv y) off) in *. set (v := deval (iv y) (dv y) b) in *.
  unfold AddByte_body. apply runs_seq. eapply (runs_ld1 1 _ _ q s o); [exact Pq|lia|csimpl; destruct q; reflexivity|]. csimpl.
  eapply (runs_st1 _ _ _ q s o); [exact Pq|lia|csimpl; destruct q; reflexivity|]. csimpl. intros m' P1 C1. rewrite Ls in C1. apply HQ; [|exact C1].
  rewrite N.mod_small in P1; [exact P1|]. apply byte_lxor; [apply bytes_ok_nth, Bs|exact Hb].
Qed.

Lemma runs_AddBytes A D off len y q qd s l (Q : state -> Prop) : peval (iv y) (pv y) A = Some q -> peval (iv y) (pv y) D = Some qd ->
  pts (nx y) (mm y) q s -> wfs s -> pts (nx y) (mm y) qd l -> bytes_ok l -> ieval (iv y) len = length l -> ieval (iv y) off + length l <= 200 ->
  disj q 200 qd (length l) ->
  (forall m' c', pts (nx y) m' q (xor_at s (ieval (iv y) off) l) -> chg (nx y) (mm y) m' [(q, 200)] -> Q (set_mc y m' c')) ->
  runs U (c_AddBytes A D off len) y Q.
Proof.
  intros Hq Hd Pq [Ls Bs] Pd Bl Hn Ho HD HQ. unfold c_AddBytes. eapply runs_call; [cbn [pargevals pargeval pevals]; rewrite Hq, Hd; reflexivity|]. cbn [map]. rewrite Hn. set (o := ieval (iv y) off) in *.
  unfold AddBytes_body.
  apply runs_for with (I := fun k z => pv z = args [] [[q]; [qd]] /\ iv z 0 = o /\ iv z 1 = length l /\ nx z = nx y /\ pts (nx y) (mm z) q (xor_at s o (firstn k l)) /\ chg (nx y) (mm y) (mm z) [(q, 200)]).
  - csimpl. repeat (split; [reflexivity|]). split; [exact Pq|apply chg_refl].
  - csimpl. rewrite iters. intros k z Hk (Zp & Z0 & Z1 & Zn & Zq & Zc). rewrite Nat.mul_1_r.
    set (s' := xor_at s o (firstn k l)) in *. assert (Ls' : length s' = 200) by (unfold s'; rewrite length_xor_at; exact Ls).
    assert (Lk : length (firstn k l) = k) by (rewrite firstn_length; lia).
    assert (Bs' : bytes_ok s') by (apply (xor_at_wfs (firstn k l) s o (conj Ls Bs)); [apply Forall_firstn, Bl|lia]).
    apply runs_seq. eapply (runs_ld1 0 _ _ q s' (o + k)); [csimpl; rewrite Zn; exact Zq|lia|csimpl; rewrite Zp, Z0; csimpl; destruct q; reflexivity|]. csimpl.
    apply runs_seq. eapply (runs_ld1 1 _ _ qd l k); [csimpl; rewrite Zn; apply (pts_chg1 _ _ _ _ _ _ _ Zc Pd HD)|exact Hk|csimpl; rewrite Zp; csimpl; destruct qd; reflexivity|]. csimpl.
    eapply (runs_st1 _ _ _ q s' (o + k)); [csimpl; rewrite Zn; exact Zq|lia|csimpl; rewrite Zp, Z0; csimpl; destruct q; reflexivity|]. csimpl. rewrite Zn, Ls'. intros m' P1 C1.
    split; [exact Zp|]. split; [exact Z0|]. split; [exact Z1|]. split; [auto|]. split; [|exact (chg1_trans _ _ _ _ _ Zc C1)].
    rewrite (firstn_snoc l k 0%N Hk), xor_at_snoc by lia. rewrite Lk. fold s'. rewrite N.mod_small in P1; [exact P1|].
    apply byte_lxor; apply bytes_ok_nth; assumption.
  - csimpl. rewrite iters. intros z (Zp & Z0 & Z1 & Zn & Zq & Zc). rewrite firstn_all in Zq. rewrite Zn. apply (HQ (mm z) (ct z) Zq Zc).
Qed.

(** ** SpongeAbsorb *)
Section Absorb.
Variables (n : nat) (m0 : memory) (q qd qr : ptr) (data : bytes) (s0 : bytes) (k0 r len : nat).
Hypothesis Hlen : len = length data.
Hypothesis Hr : 0 < r <= 200.
Hypothesis Bd : bytes_ok data.
Hypothesis Ws0 : wfs s0.
Hypothesis Hk0 : k0 < r.
Hypothesis Pd : pts n m0 qd data.
Hypothesis Pr : pts n m0 qr rc_bytes.
Hypothesis Aq : snd q mod 8 = 0.
Hypothesis Ar : snd qr mod 8 = 0.
Hypothesis Dd : disj q 200 qd len.
Hypothesis Dr : disj q 200 qr 192.

Definition after (i : nat) : bytes * nat := fold_left (absorb1 r) (firstn i data) (s0, k0).
Lemma after_wf i : wfs (fst (after i)) /\ snd (after i) < r.
Proof. apply absorb_wf; cbn [fst snd]; auto; [apply Forall_firstn, Bd|lia]. Qed.
Lemma after_add i j : after (i + j) = fold_left (absorb1 r) (firstn j (skipn i data)) (after i).
Proof. unfold after. rewrite CodeLowMCProofs.firstn_add, fold_left_app. reflexivity. Qed.

(** In the loop, [i] bytes taken; the memory and variable 1 are at [p]. *)
Record absI (i : nat) (p : bytes * nat) (z : state) : Prop := {
  aI7 : iv z 7 = r;
  aI3 : iv z 3 = len;
  aI1 : iv z 1 = snd p;
  aP0 : pv z 0 = [q];
  aP2 : pv z 2 = [qr];
  aP3 : pv z 3 = [(fst qd, snd qd + i)];
  aN : nx z = n;
  aQ : pts n (mm z) q (fst p);
  aC : chg n m0 (mm z) [(q, 200)]
}.

Lemma data_at i j z p : absI i p z -> i + j <= len -> pts (nx z) (mm z) (fst qd, snd qd + i) (firstn j (skipn i data)).
Proof.
  intros H Hij. rewrite (aN _ _ _ H). apply (pts_sub _ _ qd data i j); [|lia]. apply (pts_chg1 _ _ _ _ _ _ _ (aC _ _ _ H) Pd). rewrite <- Hlen. exact Dd.
Qed.
Lemma rc_at i z p : absI i p z -> pts (nx z) (mm z) qr rc_bytes.
Proof. intros H. rewrite (aN _ _ _ H). apply (pts_chg1 _ _ _ _ _ _ _ (aC _ _ _ H) Pr). exact Dr. Qed.
Lemma disj_at i j : i + j <= len -> disj q 200 (fst qd, snd qd + i) j.
Proof. intros H. destruct Dd as [D|[D|D]]; [left; exact D|right; left; cbn [snd]; lia|right; right; cbn [snd]; lia]. Qed.

(** Taking [j] bytes into the block. *)
Lemma take i j e off z p (Q : state -> Prop) : absI i p z -> wfs (fst p) -> i + j <= len -> ieval (iv z) e = j -> ieval (iv z) off + j <= 200 ->
  (forall m' c', absI i (xor_at (fst p) (ieval (iv z) off) (firstn j (skipn i data)), snd p) (set_mc z m' c') -> Q (set_mc z m' c')) ->
  runs U (c_AddBytes (P0 0) (P0 3) off e) z Q.
Proof.
  intros H W Hij He Ho HQ. assert (L : length (firstn j (skipn i data)) = j) by (rewrite firstn_length, skipn_length; lia).
  pose proof (data_at i j z p H Hij) as HD. pose proof H as [H7 H3 H1 HP0 HP2 HP3 HN HQ0 HC].
  eapply (runs_AddBytes _ _ _ _ _ q _ (fst p) (firstn j (skipn i data))); [unfold P0; csimpl; rewrite HP0; reflexivity|unfold P0; csimpl; rewrite HP3; reflexivity|rewrite HN; exact HQ0|exact W|exact HD|apply bytes_ok_slice, Bd|rewrite L; exact He|rewrite L; exact Ho|rewrite L; apply disj_at, Hij|].
  rewrite HN. intros m' c' P1 C1. apply HQ. split; try assumption. exact (chg1_trans _ _ _ _ _ HC C1).
Qed.
Lemma perm i z p (Q : state -> Prop) : absI i p z -> wfs (fst p) ->
  (forall m' c', absI i (Fp (fst p), snd p) (set_mc z m' c') -> Q (set_mc z m' c')) -> runs U (c_Permute (P0 0) 2) z Q.
Proof.
  intros H W HQ. pose proof (rc_at i z p H) as HR. pose proof H as [H7 H3 H1 HP0 HP2 HP3 HN HQ0 HC].
  eapply (runs_Permute U _ _ _ q qr (fst p)); [exact HU|unfold P0; csimpl; rewrite HP0; reflexivity|exact HP2|rewrite HN; exact HQ0|exact W|exact Aq|exact HR|exact Ar|exact Dr|].
  rewrite HN. intros m' c' P1 C1. apply HQ. split; try assumption. exact (chg1_trans _ _ _ _ _ HC C1).
Qed.

Lemma part_ok i z : absI i (after i) z -> iv z 4 = i -> i < len -> (snd (after i) = 0 -> len < i + r) ->
  runs U CodeKeccak.absorb_part z (fun w => exists i', i < i' <= len /\ iv w 4 = i' /\ absI i' (after i') w).
Proof.
  intros H H4 Hi H0. destruct (after_wf i) as [W Hk]. destruct (after i) as [s k] eqn:EA. cbn [fst snd] in *.
  set (j := if r <? len - i + k then r - k else len - i).
  assert (Hj : 0 < j /\ i + j <= len /\ k + j <= r /\ (k + j < r -> i + j = len)) by (unfold j; destruct (Nat.ltb_spec r (len - i + k)); lia).
  pose proof H as [H7 H3 H1 HP0 HP2 HP3 HN HQ0 HC]. cbn [fst snd] in *.
  unfold CodeKeccak.absorb_part. apply runs_seq, runs_iset. csimpl. rewrite H3, H4. apply runs_seq.
  eapply runs_if; [csimpl; rewrite H7, H1; reflexivity|].
  assert (X : forall z1, absI i (s, k) z1 -> iv z1 4 = i -> iv z1 6 = j ->
    runs U (Seq (ISet 4 (IAdd (IV 4) (IV 6))) (Seq (c_AddBytes (P0 0) (P0 3) (IV 1) (IV 6)) (Seq (PSet 3 [PAdd (P0 3) (IV 6)]) (Seq (ISet 1 (IAdd (IV 1) (IV 6))) (If (CEq (IV 1) (IV 7)) (Seq (c_Permute (P0 0) 2) (ISet 1 (IC 0))) Skip))))) z1
      (fun w => exists i', i < i' <= len /\ iv w 4 = i' /\ absI i' (after i') w)).
  { clear z H H4 H7 H3 H1 HP0 HP2 HP3 HN HQ0 HC. intros z H H4 H6. pose proof H as [H7 H3 H1 HP0 HP2 HP3 HN HQ0 HC]. cbn [fst snd] in *.
    apply runs_seq, runs_iset. csimpl. rewrite H4, H6. apply runs_seq.
    eapply (take i j _ _ _ (s, k)); [split; assumption|exact W|lia|csimpl; exact H6|csimpl; rewrite H1; lia|]. csimpl. rewrite H1. unfold set_mc. csimpl. intros m' c' [_ _ _ _ _ _ _ G1 G2]. csimpl_in G1. csimpl_in G2.
    set (l := firstn j (skipn i data)) in *. assert (Ll : length l = j) by (unfold l; rewrite firstn_length, skipn_length; lia).
    apply runs_seq. eapply runs_pset; [csimpl; rewrite HP3; csimpl; rewrite H6; reflexivity|]. csimpl. apply runs_seq, runs_iset. csimpl. rewrite H1, H6.
    assert (Wx : wfs (xor_at s k l)) by (apply xor_at_wfs; [exact W|apply bytes_ok_slice, Bd|lia]).
    assert (EA' : after (i + j) = fold_left (absorb1 r) l (s, k)) by (rewrite after_add, EA; reflexivity).
    eapply runs_if; [csimpl; rewrite H7; reflexivity|]. destruct (Nat.eqb_spec (k + j) r) as [Er|Er].
    - assert (E2 : after (i + j) = (Fp (xor_at s k l), 0)) by (rewrite EA'; apply absorb_fill; [intros E; rewrite E in Ll; cbn in Ll; lia|lia]).
      apply runs_seq. eapply (perm (i + j) _ (xor_at s k l, k + j)).
      { split; csimpl; auto. rewrite Nat.add_assoc. reflexivity. }
      { exact Wx. }
      unfold set_mc. csimpl. intros m2 c2 [_ _ _ _ _ _ _ G3 G4]. csimpl_in G3. csimpl_in G4. apply runs_iset. csimpl.
      exists (i + j). split; [lia|]. split; [reflexivity|]. rewrite E2. split; csimpl; auto. rewrite Nat.add_assoc. reflexivity.
    - assert (E2 : after (i + j) = (xor_at s k l, k + j)) by (rewrite EA', absorb_part by lia; rewrite Ll; reflexivity).
      apply runs_skip. exists (i + j). split; [lia|]. split; [reflexivity|]. rewrite E2. split; csimpl; auto. rewrite Nat.add_assoc. reflexivity. }
  destruct (Nat.ltb_spec r (len - i + k)) as [C|C].
  - apply runs_iset. csimpl. rewrite H7, H1. apply X; [split; csimpl; assumption|exact H4|reflexivity].
  - apply runs_skip. apply X; [split; csimpl; assumption|exact H4|reflexivity].
Qed.

Lemma blocks_ok i z : absI i (after i) z -> iv z 4 = i -> i + r <= len -> snd (after i) = 0 ->
  runs U CodeKeccak.absorb_blocks z (fun w => exists i', i < i' <= len /\ iv w 4 = i' /\ absI i' (after i') w).
Proof.
  intros H H4 Hi H0. pose proof H as [H7 H3 H1 HP0 HP2 HP3 HN HQ0 HC]. set (b := (len - i) / r).
  assert (Hb : r * b <= len - i /\ 0 < b). { unfold b. split; [apply Nat.mul_div_le; lia|]. apply Nat.div_str_pos. lia. }
  unfold CodeKeccak.absorb_blocks. apply runs_seq, runs_iset. csimpl. rewrite H3, H4. apply runs_seq.
  apply runs_for with (I := fun t w => absI (i + r * t) (after (i + r * t)) w /\ snd (after (i + r * t)) = 0 /\ iv w 5 = len - i - r * t /\ iv w 4 = i).
  - csimpl. rewrite Nat.mul_0_r, Nat.add_0_r, Nat.sub_0_r. split; [split; csimpl; assumption|]. auto.
  - csimpl. rewrite H7. fold b. rewrite iters. intros t w Ht (Hw & K0 & W5 & W4). destruct (after_wf (i + r * t)) as [W _]. set (i' := i + r * t) in *.
    assert (Hi' : i' + r <= len) by (unfold i'; nia).
    assert (Er : i + r * S t = i' + r) by (unfold i'; lia). rewrite Er.
    pose proof Hw as [G7 G3 G1 GP0 GP2 GP3 GN GQ0 GC]. set (l := firstn r (skipn i' data)). assert (Ll : length l = r) by (unfold l; rewrite firstn_length, skipn_length; lia).
    assert (E2 : after (i' + r) = (Fp (xor_at (fst (after i')) 0 l), 0)).
    { rewrite after_add. fold l. rewrite (surjective_pairing (after i')), K0. apply absorb_fill; [intros E; rewrite E in Ll; cbn in Ll; lia|lia]. }
    apply runs_seq. eapply (take i' r _ _ _ (after i')); [split; csimpl; assumption|exact W|exact Hi'|csimpl; exact G7|csimpl; lia|]. csimpl. unfold set_mc. csimpl. intros m' c' [_ _ _ _ _ _ _ J1 J2]. csimpl_in J1. csimpl_in J2.
    apply runs_seq. eapply (perm i' _ (xor_at (fst (after i')) 0 l, snd (after i'))); [split; csimpl; auto|apply xor_at_wfs; [exact W|apply bytes_ok_slice, Bd|lia]|]. unfold set_mc. csimpl. intros m2 c2 [_ _ _ _ _ _ _ J3 J4]. csimpl_in J3. csimpl_in J4.
    apply runs_seq. eapply runs_pset; [csimpl; rewrite GP3; csimpl; rewrite G7; reflexivity|]. csimpl. apply runs_iset. csimpl. rewrite W5, G7.
    rewrite E2. split; [|split; [reflexivity|split; [lia|exact W4]]]. split; csimpl; auto; [rewrite G1; exact K0|rewrite Nat.add_assoc; reflexivity].
  - csimpl. rewrite H7. fold b. rewrite iters. intros w (Hw & K0 & W5 & W4). apply runs_iset. csimpl. pose proof Hw as [G7 G3 G1 GP0 GP2 GP3 GN GQ0 GC]. rewrite G3, W5.
    exists (i + r * b). split; [nia|]. split; [nia|]. split; csimpl; assumption.
Qed.

Lemma loop_absorb z : absI 0 (s0, k0) z -> iv z 4 = 0 ->
  runs U (For 9 (IC 0) (IV 3) 1 (If (CLt (IV 4) (IV 3)) absorb_step Skip)) z (fun w => absI len (fold_left (absorb1 r) data (s0, k0)) w).
Proof.
  intros H H4. assert (EL : after len = fold_left (absorb1 r) data (s0, k0)) by (unfold after; rewrite Hlen, firstn_all; reflexivity).
  apply runs_for with (I := fun t w => exists i, (t <= i \/ i = len) /\ i <= len /\ iv w 4 = i /\ absI i (after i) w).
  - exists 0. split; [lia|]. split; [lia|]. split; [exact H4|exact H].
  - csimpl. rewrite (aI3 _ _ _ H), iters. intros t w Ht (i & Hi & Hl & W4 & Hw). rewrite Nat.mul_1_r. pose proof Hw as [G7 G3 G1 GP0 GP2 GP3 GN GQ0 GC].
    eapply runs_if; [csimpl; rewrite W4, G3; reflexivity|]. destruct (Nat.ltb_spec i len) as [L|L].
    + apply (runs_mono U _ _ (fun w => exists i', i < i' <= len /\ iv w 4 = i' /\ absI i' (after i') w)).
      2:{ intros x (i' & A & B & C). exists i'. split; [lia|]. split; [lia|]. auto. }
      unfold absorb_step. eapply runs_if; [csimpl; rewrite G1; reflexivity|]. set (w1 := set_iv w (upd (iv w) 9 (0 + t))) in *.
      assert (H1 : absI i (after i) w1) by (split; assumption).
      destruct (Nat.eqb_spec (snd (after i)) 0) as [E|E].
      * eapply runs_if; [unfold w1; csimpl; rewrite W4, G3, G7; reflexivity|]. destruct (Nat.ltb_spec len (i + r)); [apply (part_ok i w1); auto|apply (blocks_ok i w1); auto].
      * apply (part_ok i w1); auto. contradiction.
    + apply runs_skip. exists i. split; [lia|]. split; [lia|]. split; [exact W4|]. split; assumption.
  - csimpl. rewrite (aI3 _ _ _ H), iters. intros w (i & Hi & Hl & W4 & Hw). assert (Ei : i = len) by lia. rewrite Ei, EL in Hw. exact Hw.
Qed.
End Absorb.

(** A context at [q] with the round constants at [qr]. *)
Lemma runs_SpongeAbsorb y ia pa ir q qd qr s k rate data (Q : state -> Prop) :
  map (ieval (iv y)) ia = [rate; k; 0; length data] -> pargevals (iv y) (pv y) pa = Some [[q]; [qd]; [qr]] ->
  0 < rate / 8 <= 200 -> bytes_ok data -> wfs s -> k < rate / 8 -> pts (nx y) (mm y) q s -> pts (nx y) (mm y) qd data -> pts (nx y) (mm y) qr rc_bytes ->
  snd q mod 8 = 0 -> snd qr mod 8 = 0 -> disj q 200 qd (length data) -> disj q 200 qr 192 ->
  (forall m' c' i', let p := fold_left (absorb1 (rate / 8)) data (s, k) in i' 1 = snd p -> i' 8 = 0 -> pts (nx y) m' q (fst p) -> chg (nx y) (mm y) m' [(q, 200)] ->
     Q (mkState (copy_back ir i' (iv y)) (dv y) (pv y) m' (nx y) c')) ->
  runs U (Call SpongeAbsorb_body ia [] pa ir []) y Q.
Proof.
  intros Ei Ep Hr Bd Ws Hk Pq Pd Pr Aq Ar Dd Dr HQ. eapply runs_call; [exact Ep|]. rewrite Ei. cbn [map]. unfold SpongeAbsorb_body.
  apply runs_seq, runs_iset. csimpl. eapply runs_if; [csimpl; reflexivity|]. cbn [Nat.eqb]. apply runs_seq, runs_iset. csimpl. apply runs_seq. eapply runs_pset; [csimpl; reflexivity|]. csimpl. apply runs_seq.
  eapply runs_mono; [apply (loop_absorb (nx y) (mm y) q qd qr data s k (rate / 8) (length data) eq_refl Hr Bd Ws Hk Pd Pr Aq Ar Dd Dr)|].
  - split; csimpl; auto; [rewrite Nat.add_0_r, <- surjective_pairing; reflexivity|apply chg_refl].
  - reflexivity.
  - intros w [G7 G3 G1 GP0 GP2 GP3 GN GQ0 GC]. apply runs_iset. csimpl. rewrite GN. apply HQ; [csimpl; exact G1|reflexivity|exact GQ0|exact GC].
Qed.
End M.
