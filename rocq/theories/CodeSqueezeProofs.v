(** The sponge on memory: padding, squeezing, and the hash interface. *)

From Coq Require Import List NArith Arith Bool Lia ZifyBool ZifyNat ZifyN.
From Verif Require Import Base Params Env Spec MiniC CodeLowMC CodeKeccak CodeSpec Keccak KeccakSpec.
From Verif Require Import BaseFacts KeccakPerm KeccakSponge KeccakProofs HashProofs MiniCFacts CodeRules CodeLowMCProofs CodeHeap CodeLanes CodeKeccakProofs CodeSpongeProofs.
Import ListNotations.

Section M.
Variable U : nat -> nat -> bytes.
Hypothesis HU : locals_ok U.

Lemma pad_final r s k : 0 < r <= 200 -> wfs s -> k < r ->
  fold_left (absorb1 r) (pad_tail r k) (s, k) =
  (Fp (list_set (list_set s k (N.lxor (nth k s 0%N) 31)) (r - 1) (N.lxor (nth (r - 1) (list_set s k (N.lxor (nth k s 0%N) 31)) 0%N) 128)), 0).
Proof.
  intros Hr Hs Hk. unfold pad_tail. destruct (Nat.eqb_spec k (r - 1)) as [Ek|Ek].
  - cbn [fold_left]. unfold absorb1. destruct (Nat.eqb_spec (S k) r); [|lia]. f_equal. f_equal. rewrite <- Ek. rewrite list_set_twice. f_equal.
    rewrite nth_list_set by (destruct Hs as [-> _]; lia). rewrite Nat.eqb_refl. rewrite N.lxor_assoc. reflexivity.
  - rewrite !fold_left_app. cbn [fold_left]. unfold absorb1 at 3. destruct (Nat.eqb_spec (S k) r); [lia|].
    rewrite absorb_zeros by lia. unfold absorb1. replace (S k + (r - 2 - k)) with (r - 1) by lia.
    destruct (Nat.eqb_spec (S (r - 1)) r); [|lia]. reflexivity.
Qed.

Lemma runs_LastFewBits y ia pa ir q qr s k rate (Q : state -> Prop) :
  map (ieval (iv y)) ia = [rate; k; 0] -> pargevals (iv y) (pv y) pa = Some [[q]; [qr]] ->
  0 < rate / 8 <= 200 -> wfs s -> k < rate / 8 -> pts (nx y) (mm y) q s -> pts (nx y) (mm y) qr rc_bytes ->
  snd q mod 8 = 0 -> snd qr mod 8 = 0 -> disj q 200 qr 192 ->
  (forall m' c' i', i' 1 = 0 -> i' 2 = 1 -> i' 8 = 0 -> pts (nx y) m' q (fst (fold_left (absorb1 (rate / 8)) (pad_tail (rate / 8) k) (s, k))) ->
     chg (nx y) (mm y) m' [(q, 200)] -> Q (mkState (copy_back ir i' (iv y)) (dv y) (pv y) m' (nx y) c')) ->
  runs U (Call (LastFewBits_body 0x1F) ia [] pa ir []) y Q.
Proof.
  intros Ei Ep Hr Ws Hk Pq Pr Aq Ar Dr HQ. eapply runs_call; [exact Ep|]. rewrite Ei. cbn [map]. unfold LastFewBits_body.
  rewrite pad_final in HQ by assumption. cbn [fst] in HQ. set (r := rate / 8) in *.
  apply runs_seq, runs_iset. csimpl. fold r. eapply runs_if; [csimpl; reflexivity|]. cbn [Nat.eqb]. eapply runs_if; [csimpl; reflexivity|]. cbn [Nat.eqb].
  set (s1 := list_set s k (N.lxor (nth k s 0%N) 31)) in *. assert (W1 : wfs s1) by (apply wfs_set; [exact Ws|reflexivity]).
  set (s2 := list_set s1 (r - 1) (N.lxor (nth (r - 1) s1 0%N) 128)) in *. assert (W2 : wfs s2) by (apply wfs_set; [exact W1|reflexivity]).
  apply runs_seq. eapply (runs_AddByte U _ _ _ _ q s); [csimpl; reflexivity|exact Pq|exact Ws|csimpl; lia|csimpl; reflexivity|]. csimpl. intros m1 c1 P1 C1. unfold set_mc. csimpl. change (N.of_nat 31) with 31%N in P1. fold s1 in P1.
  apply runs_seq. eapply runs_if; [csimpl; reflexivity|]. change (31 <? 128) with true. cbn match. apply runs_skip.
  apply runs_seq. eapply (runs_AddByte U _ _ _ _ q s1); [csimpl; reflexivity|csimpl; exact P1|exact W1|csimpl; lia|csimpl; reflexivity|]. csimpl. fold s2. intros m2 c2 P2 C2. unfold set_mc. csimpl.
  assert (C02 : chg (nx y) (mm y) m2 [(q, 200)]) by exact (chg1_trans _ _ _ _ _ C1 C2).
  apply runs_seq. eapply (runs_Permute U _ _ _ q qr s2); [exact HU|csimpl; reflexivity|csimpl; reflexivity|csimpl; exact P2|exact W2|exact Aq|csimpl; apply (pts_chg1 _ _ _ _ _ _ _ C02 Pr Dr)|exact Ar|exact Dr|]. csimpl. intros m3 c3 P3 C3. unfold set_mc. csimpl.
  apply runs_seq, runs_iset. apply runs_seq, runs_iset. apply runs_iset. csimpl. apply HQ; csimpl; try reflexivity; [exact P3|exact (chg1_trans _ _ _ _ _ C02 C3)].
Qed.

(** ** SpongeSqueeze *)
Lemma runs_Extract A D off len y q qd s d i (Q : state -> Prop) : let j := ieval (iv y) len in let o := ieval (iv y) off in
  peval (iv y) (pv y) A = Some q -> peval (iv y) (pv y) D = Some (fst qd, snd qd + i) ->
  pts (nx y) (mm y) q s -> pts (nx y) (mm y) qd d -> 0 < j -> o + j <= length s -> i + j <= length d -> disj q (length s) qd (length d) ->
  (forall m' c', pts (nx y) m' qd (firstn i d ++ firstn j (skipn o s) ++ skipn (i + j) d) -> chg (nx y) (mm y) m' [(qd, length d)] -> Q (set_mc y m' c')) ->
  runs U (c_ExtractBytes A D off len) y Q.
Proof.
  intros j o Hq Hd Pq Pd Hj Ho Hi HD HQ. unfold c_ExtractBytes. eapply runs_call; [cbn [pargevals pargeval pevals]; rewrite Hq, Hd; reflexivity|]. cbn [map]. fold j o.
  unfold ExtractBytes_body. destruct q as [bq oq], qd as [bd od]. cbn [fst snd] in *.
  assert (E : rdmem (mm y) (bq, oq + o) j = firstn j (skipn o s)) by (apply (rdmem_part _ _ _ _ _ _ _ Pq); exact Ho).
  assert (Lj : length (firstn j (skipn o s)) = j) by (rewrite firstn_length, skipn_length; lia).
  eapply runs_memcpy; [csimpl; reflexivity|csimpl; reflexivity|csimpl; apply (valid_part _ _ _ _ d i j 1 Pd); [exact Hj|exact Hi|apply Nat.mod_1_r]|csimpl; apply (valid_part _ _ _ _ s o j 1 Pq); [exact Hj|exact Ho|apply Nat.mod_1_r]| |].
  - csimpl. unfold separate. cbn [fst snd]. destruct HD as [D1|[D1|D1]]; cbn [fst snd] in D1.
    + destruct (Nat.eqb_spec bd bq); [congruence|reflexivity].
    + apply orb_true_iff. right. apply Nat.leb_le. lia.
    + apply orb_true_iff. left. apply orb_true_iff. right. apply Nat.leb_le. lia.
  - csimpl. rewrite E. destruct (wrmem_part (nx y) (mm y) (bd, od) d i (firstn j (skipn o s)) Pd) as (P1 & C1 & _); [lia|intros X; rewrite X in Lj; cbn in Lj; lia|].
    cbn [fst snd] in P1, C1. rewrite Lj in P1. apply (HQ _ _ P1 C1).
Qed.

Section Squeeze.
Variables (n : nat) (m0 : memory) (q qd qr : ptr) (d0 : bytes) (p0 : bytes * nat) (r len : nat).
Hypothesis Hlen : len = length d0.
Hypothesis Hr : 0 < r <= 200.
Hypothesis Ws0 : wfs (fst p0).
Hypothesis Hk0 : snd p0 <= r.
Hypothesis Pr : pts n m0 qr rc_bytes.
Hypothesis Aq : snd q mod 8 = 0.
Hypothesis Ar : snd qr mod 8 = 0.
Hypothesis Dd : disj q 200 qd len.
Hypothesis Dr : disj q 200 qr 192.
Hypothesis Ddr : disj qd len qr 192.

Definition sq_out (i : nat) : bytes := fst (sqn r i p0).
Definition sq_pos (i : nat) : bytes * nat := snd (sqn r i p0).
Lemma sq_wf i : wfs (fst (sq_pos i)) /\ snd (sq_pos i) <= r.
Proof. apply sqn_wf; assumption. Qed.
Lemma sq_out_len i : length (sq_out i) = i.
Proof. apply length_sqn. Qed.
Lemma sq_add i j : sqn r (i + j) p0 = (sq_out i ++ fst (sqn r j (sq_pos i)), snd (sqn r j (sq_pos i))).
Proof. apply sqn_add. Qed.

Record sqI (i : nat) (p : bytes * nat) (z : state) : Prop := {
  sI7 : iv z 7 = r;
  sI3 : iv z 3 = len;
  sI1 : iv z 1 = snd p;
  sI2 : iv z 2 = 1;
  sP0 : pv z 0 = [q];
  sP2 : pv z 2 = [qr];
  sP3 : pv z 3 = [(fst qd, snd qd + i)];
  sN : nx z = n;
  sQ : pts n (mm z) q (fst p);
  sD : pts n (mm z) qd (sq_out i ++ skipn i d0);
  sC : chg n m0 (mm z) [(q, 200); (qd, len)]
}.
Lemma c2_trans m1 m2 x rs : chg n m0 m1 rs -> chg n m1 m2 [x] -> In x rs -> chg n m0 m2 rs.
Proof. intros A B HI. eapply chg_trans; [exact A|exact B|auto|]. intros y [<-|[]]. exact HI. Qed.

Lemma sq_rc i z p : sqI i p z -> pts (nx z) (mm z) qr rc_bytes.
Proof.
  intros H. rewrite (sN _ _ _ H). apply (pts_chg _ _ _ _ _ _ (sC _ _ _ H) Pr). intros a b [E|[E|[]]]; injection E as <- <-; assumption.
Qed.
Lemma sq_perm i z p (Q : state -> Prop) : sqI i p z -> i <= len -> wfs (fst p) ->
  (forall m' c', sqI i (Fp (fst p), snd p) (set_mc z m' c') -> Q (set_mc z m' c')) -> runs U (c_Permute (P0 0) 2) z Q.
Proof.
  intros H Hi W HQ. pose proof (sq_rc i z p H) as HR. pose proof H as [H7 H3 H1 H2 HP0 HP2 HP3 HN HQ0 HD HC].
  eapply (runs_Permute U _ _ _ q qr (fst p)); [exact HU|csimpl; rewrite HP0; reflexivity|exact HP2|rewrite HN; exact HQ0|exact W|exact Aq|exact HR|exact Ar|exact Dr|].
  rewrite HN. intros m' c' P1 C1. apply HQ. split; try assumption.
  - apply (pts_chg1 _ _ _ _ _ _ _ C1 HD). rewrite app_length, sq_out_len, skipn_length, <- Hlen. replace (i + (len - i)) with len by lia. exact Dd.
  - apply (c2_trans _ _ _ _ HC C1). left. reflexivity.
Qed.
(** Giving [j] bytes of the block. *)
Lemma give i j e off z (Q : state -> Prop) p : sqI i p z -> wfs (fst p) -> 0 < j -> i + j <= len -> ieval (iv z) e = j -> ieval (iv z) off + j <= 200 ->
  (forall m' c', pts n m' q (fst p) -> pts n m' qd (sq_out i ++ firstn j (skipn (ieval (iv z) off) (fst p)) ++ skipn (i + j) d0) -> chg n m0 m' [(q, 200); (qd, len)] -> Q (set_mc z m' c')) ->
  runs U (c_ExtractBytes (P0 0) (P0 3) off e) z Q.
Proof.
  intros H W Hj Hij He Ho HQ. pose proof H as [H7 H3 H1 H2 HP0 HP2 HP3 HN HQ0 HD HC]. destruct W as [Ls Bs].
  set (d := sq_out i ++ skipn i d0) in *. assert (Ld : length d = len) by (unfold d; rewrite app_length, sq_out_len, skipn_length; lia).
  eapply (runs_Extract _ _ _ _ _ q qd (fst p) d i); [csimpl; rewrite HP0; reflexivity|csimpl; rewrite HP3; reflexivity|rewrite HN; exact HQ0|rewrite HN; exact HD|lia|lia|lia|rewrite Ls, Ld; exact Dd|].
  rewrite HN, He, Ld. intros m' c' P1 C1. apply HQ.
  - apply (pts_chg1 _ _ _ _ _ _ _ C1 HQ0). rewrite Ls. apply disj_sym, Dd.
  - unfold d in P1. rewrite firstn_app, sq_out_len, Nat.sub_diag, firstn_O, app_nil_r, firstn_all2 in P1 by (rewrite sq_out_len; lia).
    rewrite skipn_app, sq_out_len in P1. rewrite (skipn_all2 (sq_out i)) in P1 by (rewrite sq_out_len; lia). cbn [app] in P1. rewrite KeccakSponge.skipn_add in P1.
    replace (i + (i + j - i)) with (i + j) in P1 by lia. exact P1.
  - apply (c2_trans _ _ _ _ HC C1). right; left. reflexivity.
Qed.

Lemma part_ok i z : sqI i (sq_pos i) z -> iv z 4 = i -> i < len ->
  runs U CodeKeccak.squeeze_part z (fun w => exists i', i < i' <= len /\ iv w 4 = i' /\ sqI i' (sq_pos i') w).
Proof.
  intros H H4 Hi. destruct (sq_wf i) as [W Hk]. set (p := if snd (sq_pos i) =? r then (Fp (fst (sq_pos i)), 0) else sq_pos i).
  assert (Wp : wfs (fst p) /\ snd p < r).
  { unfold p. destruct (Nat.eqb_spec (snd (sq_pos i)) r); cbn [fst snd]; split; [apply wfs_Fp, W|lia|exact W|lia]. }
  assert (Ep : forall j, 0 < j -> sqn r j (sq_pos i) = sqn r j p).
  { intros j Hj. unfold p. rewrite (surjective_pairing (sq_pos i)) at 1. destruct (Nat.eqb_spec (snd (sq_pos i)) r) as [E|E]; [rewrite E; apply sqn_perm; lia|rewrite <- surjective_pairing; reflexivity]. }
  unfold CodeKeccak.squeeze_part.
  assert (X : forall z1, sqI i p z1 -> iv z1 4 = i ->
    runs U (Seq (ISet 6 (ISub (IV 3) (IV 4))) (Seq (If (CLt (IV 7) (IAdd (IV 6) (IV 1))) (ISet 6 (ISub (IV 7) (IV 1))) Skip) (Seq (ISet 4 (IAdd (IV 4) (IV 6))) (Seq (c_ExtractBytes (P0 0) (P0 3) (IV 1) (IV 6)) (Seq (PSet 3 [PAdd (P0 3) (IV 6)]) (ISet 1 (IAdd (IV 1) (IV 6)))))))) z1
      (fun w => exists i', i < i' <= len /\ iv w 4 = i' /\ sqI i' (sq_pos i') w)).
  { clear z H H4. intros z H H4. clearbody p. destruct p as [s k]. destruct Wp as [Ws Hks]. cbn [fst snd] in *.
    set (j := if r <? len - i + k then r - k else len - i).
    assert (Hj : 0 < j /\ i + j <= len /\ k + j <= r) by (unfold j; destruct (Nat.ltb_spec r (len - i + k)); lia).
    pose proof H as [H7 H3 H1 H2 HP0 HP2 HP3 HN HQ0 HD HC]. cbn [fst snd] in *.
    apply runs_seq, runs_iset. csimpl. rewrite H3, H4. apply runs_seq. eapply runs_if; [csimpl; rewrite H7, H1; reflexivity|].
    assert (Y : forall z1, sqI i (s, k) z1 -> iv z1 4 = i -> iv z1 6 = j ->
      runs U (Seq (ISet 4 (IAdd (IV 4) (IV 6))) (Seq (c_ExtractBytes (P0 0) (P0 3) (IV 1) (IV 6)) (Seq (PSet 3 [PAdd (P0 3) (IV 6)]) (ISet 1 (IAdd (IV 1) (IV 6)))))) z1
      (fun w => exists i', i < i' <= len /\ iv w 4 = i' /\ sqI i' (sq_pos i') w)).
    { clear z H H4 H7 H3 H1 H2 HP0 HP2 HP3 HN HQ0 HD HC. intros z H H4 H6. pose proof H as [H7 H3 H1 H2 HP0 HP2 HP3 HN HQ0 HD HC]. cbn [fst snd] in *.
      apply runs_seq, runs_iset. csimpl. rewrite H4, H6. apply runs_seq.
      eapply (give i j _ _ _ _ (s, k)); [split; assumption|exact Ws|lia|lia|csimpl; exact H6|csimpl; rewrite H1; lia|]. csimpl. rewrite H1. unfold set_mc. csimpl. intros m' c' R1 R2 R3.
      apply runs_seq. eapply runs_pset; [csimpl; rewrite HP3; csimpl; rewrite H6; reflexivity|]. csimpl. apply runs_iset. csimpl. rewrite H1, H6.
      assert (E1 : sqn r (i + j) p0 = (sq_out i ++ firstn j (skipn k s), (s, k + j))).
      { rewrite sq_add, Ep by lia. destruct Ws as [Ls _]. rewrite sqn_part by lia. reflexivity. }
      exists (i + j). split; [lia|]. split; [reflexivity|]. unfold sq_pos. rewrite E1. cbn [snd]. split; csimpl; auto; [rewrite Nat.add_assoc; reflexivity|].
      unfold sq_out at 1. rewrite E1. cbn [fst]. rewrite <- app_assoc. exact R2. }
    destruct (Nat.ltb_spec r (len - i + k)) as [C|C].
    - apply runs_iset. csimpl. rewrite H7, H1. apply Y; [split; csimpl; assumption|exact H4|reflexivity].
    - apply runs_skip. apply Y; [split; csimpl; assumption|exact H4|reflexivity]. }
  apply runs_seq. eapply runs_if; [csimpl; rewrite (sI1 _ _ _ H), (sI7 _ _ _ H); reflexivity|].
  unfold p in X. destruct (Nat.eqb_spec (snd (sq_pos i)) r) as [E|E].
  - apply runs_seq. eapply (sq_perm i _ (sq_pos i)); [exact H|lia|exact W|]. intros m' c' [_ _ _ _ _ _ _ G1 G2 G3 G4]. destruct H as [H7 H3 H1 H2 HP0 HP2 HP3 HN HQ0 HD HC]. apply runs_iset. unfold set_mc in *. csimpl. csimpl_in G1. csimpl_in G2. csimpl_in G3. csimpl_in G4.
    apply X; [|exact H4]. split; csimpl; auto.
  - apply runs_skip. apply X; [exact H|exact H4].
Qed.

Lemma blocks_ok i z : sqI i (sq_pos i) z -> iv z 4 = i -> i + r <= len -> snd (sq_pos i) = r ->
  runs U CodeKeccak.squeeze_blocks z (fun w => exists i', i < i' <= len /\ iv w 4 = i' /\ sqI i' (sq_pos i') w).
Proof.
  intros H H4 Hi H0. pose proof H as [H7 H3 H1 H2 HP0 HP2 HP3 HN HQ0 HD HC]. set (b := (len - i) / r).
  assert (Hb : r * b <= len - i /\ 0 < b). { unfold b. split; [apply Nat.mul_div_le; lia|]. apply Nat.div_str_pos. lia. }
  unfold CodeKeccak.squeeze_blocks. apply runs_seq, runs_iset. csimpl. rewrite H3, H4. apply runs_seq.
  apply runs_for with (I := fun t w => sqI (i + r * t) (sq_pos (i + r * t)) w /\ snd (sq_pos (i + r * t)) = r /\ iv w 5 = len - i - r * t /\ iv w 4 = i).
  - csimpl. rewrite Nat.mul_0_r, Nat.add_0_r, Nat.sub_0_r. split; [split; csimpl; assumption|]. auto.
  - csimpl. rewrite H7. fold b. rewrite CodeSpongeProofs.iters. intros t w Ht (Hw & K0 & W5 & W4). destruct (sq_wf (i + r * t)) as [W _]. set (i' := i + r * t) in *.
    assert (Hi' : i' + r <= len) by (unfold i'; nia).
    assert (Er : i + r * S t = i' + r) by (unfold i'; lia). rewrite Er.
    pose proof Hw as [G7 G3 G1 G2 GP0 GP2 GP3 GN GQ0 GD GC]. set (s := Fp (fst (sq_pos i'))). assert (Ws : wfs s) by (apply wfs_Fp, W).
    assert (E2 : sqn r (i' + r) p0 = (sq_out i' ++ firstn r s, (s, r))).
    { rewrite sq_add. rewrite (surjective_pairing (sq_pos i')), K0. rewrite sqn_perm by lia. fold s. destruct Ws as [Ls _]. rewrite sqn_part by lia. reflexivity. }
    apply runs_seq. eapply (sq_perm i' _ (sq_pos i')); [split; csimpl; assumption|lia|exact W|]. unfold set_mc. csimpl. fold s. intros m1 c1 H'. pose proof H' as [_ _ _ _ _ _ _ _ J1 J2 J3]. csimpl_in J1. csimpl_in J2. csimpl_in J3.
    apply runs_seq. eapply (give i' r _ _ _ _ (s, snd (sq_pos i'))); [exact H'|exact Ws|lia|exact Hi'|csimpl; exact G7|csimpl; lia|]. csimpl. unfold set_mc. csimpl. intros m2 c2 K1 K2 K3.
    apply runs_seq. eapply runs_pset; [csimpl; rewrite GP3; csimpl; rewrite G7; reflexivity|]. csimpl. apply runs_iset. csimpl. rewrite W5, G7.
    unfold sq_pos. rewrite E2. cbn [snd fst]. split; [|split; [reflexivity|split; [lia|exact W4]]]. split; csimpl; auto; [rewrite G1; exact K0|rewrite Nat.add_assoc; reflexivity|].
    unfold sq_out at 1. rewrite E2. cbn [fst]. rewrite <- app_assoc. exact K2.
  - csimpl. rewrite H7. fold b. rewrite CodeSpongeProofs.iters. intros w (Hw & K0 & W5 & W4). apply runs_iset. csimpl. pose proof Hw as [G7 G3 G1 G2 GP0 GP2 GP3 GN GQ0 GD GC]. rewrite G3, W5.
    exists (i + r * b). split; [nia|]. split; [nia|]. split; csimpl; assumption.
Qed.

Lemma loop_squeeze z : sqI 0 p0 z -> iv z 4 = 0 ->
  runs U (For 9 (IC 0) (IV 3) 1 (If (CLt (IV 4) (IV 3)) squeeze_step Skip)) z (fun w => sqI len (sq_pos len) w).
Proof.
  intros H H4.
  apply runs_for with (I := fun t w => exists i, (t <= i \/ i = len) /\ i <= len /\ iv w 4 = i /\ sqI i (sq_pos i) w).
  - exists 0. split; [lia|]. split; [lia|]. split; [exact H4|exact H].
  - csimpl. rewrite (sI3 _ _ _ H), CodeSpongeProofs.iters. intros t w Ht (i & Hi & Hl & W4 & Hw). rewrite Nat.mul_1_r. pose proof Hw as [G7 G3 G1 G2 GP0 GP2 GP3 GN GQ0 GD GC].
    eapply runs_if; [csimpl; rewrite W4, G3; reflexivity|]. destruct (Nat.ltb_spec i len) as [L|L].
    + apply (runs_mono U _ _ (fun w => exists i', i < i' <= len /\ iv w 4 = i' /\ sqI i' (sq_pos i') w)).
      2:{ intros x (i' & A & B & C). exists i'. split; [lia|]. split; [lia|]. auto. }
      unfold squeeze_step. eapply runs_if; [csimpl; rewrite G1, G7; reflexivity|]. set (w1 := set_iv w (upd (iv w) 9 (0 + t))) in *.
      assert (H1 : sqI i (sq_pos i) w1) by (split; assumption).
      destruct (Nat.eqb_spec (snd (sq_pos i)) r) as [E|E].
      * eapply runs_if; [unfold w1; csimpl; rewrite W4, G3, G7; reflexivity|]. destruct (Nat.ltb_spec len (i + r)); [apply (part_ok i w1); auto|apply (blocks_ok i w1); auto].
      * apply (part_ok i w1); auto.
    + apply runs_skip. exists i. split; [lia|]. split; [lia|]. split; [exact W4|]. split; assumption.
  - csimpl. rewrite (sI3 _ _ _ H), CodeSpongeProofs.iters. intros w (i & Hi & Hl & W4 & Hw). assert (Ei : i = len) by lia. rewrite Ei in Hw. exact Hw.
Qed.
End Squeeze.

Lemma runs_SpongeSqueeze y ia pa ir q qd qr p rate d (Q : state -> Prop) :
  map (ieval (iv y)) ia = [rate; snd p; 1; length d] -> pargevals (iv y) (pv y) pa = Some [[q]; [qd]; [qr]] ->
  0 < rate / 8 <= 200 -> wfs (fst p) -> snd p <= rate / 8 -> pts (nx y) (mm y) q (fst p) -> pts (nx y) (mm y) qd d -> pts (nx y) (mm y) qr rc_bytes ->
  snd q mod 8 = 0 -> snd qr mod 8 = 0 -> disj q 200 qd (length d) -> disj q 200 qr 192 -> disj qd (length d) qr 192 ->
  (forall m' c' i', let x := sqn (rate / 8) (length d) p in i' 1 = snd (snd x) -> i' 2 = 1 -> i' 8 = 0 -> pts (nx y) m' q (fst (snd x)) -> pts (nx y) m' qd (fst x) ->
     chg (nx y) (mm y) m' [(q, 200); (qd, length d)] -> Q (mkState (copy_back ir i' (iv y)) (dv y) (pv y) m' (nx y) c')) ->
  runs U (Call SpongeSqueeze_body ia [] pa ir []) y Q.
Proof.
  intros Ei Ep Hr Ws Hk Pq Pd Pr Aq Ar Dd Dr Ddr HQ. eapply runs_call; [exact Ep|]. rewrite Ei. cbn [map]. unfold SpongeSqueeze_body.
  apply runs_seq, runs_iset. csimpl. apply runs_seq. eapply runs_if; [csimpl; reflexivity|]. cbn [Nat.eqb]. apply runs_skip. apply runs_seq, runs_iset. csimpl. apply runs_seq. eapply runs_pset; [csimpl; reflexivity|]. csimpl. apply runs_seq.
  eapply runs_mono; [apply (loop_squeeze (nx y) (mm y) q qd qr d p (rate / 8) (length d) eq_refl Hr Ws Hk Pr Aq Ar Dd Dr Ddr)|].
  - split; csimpl; auto; [rewrite Nat.add_0_r, <- surjective_pairing; reflexivity|apply chg_refl].
  - reflexivity.
  - intros w [G7 G3 G1 G2 GP0 GP2 GP3 GN GQ0 GD GC]. apply runs_iset. csimpl. rewrite GN. rewrite skipn_all, app_nil_r in GD.
    apply HQ; [csimpl; exact G1|csimpl; exact G2|reflexivity|exact GQ0|exact GD|exact GC].
Qed.
End M.
