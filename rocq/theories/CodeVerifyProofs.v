(** The third output shares in verification, on memory with pointers. *)

From Coq Require Import List NArith Arith Bool Lia ZifyBool ZifyNat ZifyN.
From Verif Require Import Base Params Env Spec LowMC MiniC CodeLowMC CodeZkb CodeSpec CodeZkbSpec CodeVerify CodeVerifySpec BaseFacts ParamFacts
  LowMCFacts MiniCFacts CodeRules CodeLowMCProofs CodeHeap CodeZkbMpc CodeXor CodeWitness.
Import ListNotations.
Local Open Scope c_scope.

Section S.
Variables (U : nat -> nat -> bytes) (P : paramset) (st : state) (qs : ptr) (f1 f2 : nat -> bytes) (pk : bytes).
Hypothesis H : view3_call P st qs f1 f2 pk.
Let T := numMPCRounds P.
Let sB := stateSizeBytes P.
Let n := nx st.
Let share i := lxor_list (lxor_list (f1 i) (f2 i)) pk.
Let at_ i : ptr := (fst qs, snd qs + i * sB).

Definition vinv (k : nat) (z : state) : Prop :=
  (forall a, a <> 0 -> pv z a = pv st a) /\ pv z 0 = [at_ k] /\ nx z = n /\ (forall a, a <> 0 -> iv z a = iv st a) /\ dv z = dv st /\ chg n (mm st) (mm z) [(qs, T * sB)] /\
  forall i, i < k -> pts n (mm z) (at_ i) (share i).

Lemma view3_step k z (Q : state -> Prop) : k < T -> aligned (at_ k) -> vinv k z ->
  (forall z', vinv (S k) z' -> Q z') ->
  runs U (c_xor_three (P0 0) (PV 1 (IV 0)) (PV 2 (IV 0)) (P0 3) (IC sB) ;; PSet 0 [PAdd (P0 0) (IC sB)]) (set_iv z (upd (iv z) 0 k)) Q.
Proof.
  intros Hk Ha (Z1 & Z2 & Z3 & Z4 & Z5 & Z6 & Z7) HQ. destruct H as [(E0 & A0 & l & Pl & Ll) O1 O2 Hlen (qp & Ep & Rp & Ap & Lp)].
  fold T sB in Ll, O1, O2, Hlen, Rp, Lp. destruct (O1 k Hk) as (p1 & E1 & R1 & A1). destruct (O2 k Hk) as (p2 & E2 & R2 & A2). destruct (Hlen k Hk) as [Ln1 Ln2].
  assert (Sub : k * sB + sB <= T * sB) by nia.
  assert (Hin : forall q r, length r = sB -> reads st [(qs, T * sB)] q r -> pts n (mm z) q r /\ bytes_ok r /\ disj (at_ k) sB q sB).
  { intros q r Lr (Pr & Br & Dr). specialize (Dr qs (T * sB) (or_introl eq_refl)). rewrite Lr in Dr. split; [|split; [exact Br|]].
    - apply (pts_chg1 n (mm st) (mm z) _ _ q r Z6 Pr). rewrite Lr. exact Dr.
    - unfold disj, at_ in *. cbn [fst snd]. lia. }
  destruct (Hin p1 _ Ln1 R1) as (P1 & B1 & D1). destruct (Hin p2 _ Ln2 R2) as (P2 & B2 & D2). destruct (Hin qp _ Lp Rp) as (P3 & B3 & D3).
  assert (Lz : exists l', pts n (mm z) (at_ k) l' /\ length l' = sB).
  { destruct (Nat.eq_dec sB 0) as [Hz|Hz]; [exists []; split; [split; [apply Pl|intros i x Hx; destruct i; discriminate Hx]|cbn; lia]|].
    assert (Hb : snd qs + T * sB <= length (mm z (fst qs))).
    { pose proof (pts_bound n (mm st) qs l Pl) as Hb. rewrite Ll in Hb. destruct (Z6 (fst qs) ltac:(apply Pl)) as [-> _]. apply Hb. intros ->. cbn in Ll. nia. }
    exists (firstn sB (skipn (snd (at_ k)) (mm z (fst qs)))). split.
    - assert (Pw : pts n (mm z) (fst qs, 0) (mm z (fst qs))) by (split; [apply Pl|intros i x Hx; exact Hx]).
      apply (pts_sub n (mm z) (fst qs, 0) (mm z (fst qs)) (snd qs + k * sB) sB Pw). lia.
    - rewrite firstn_length, skipn_length. cbn [at_ snd]. lia. }
  destruct Lz as (l' & Pl' & Ll'). destruct z as [zi zd zp zm zn zc]. cbn [iv dv pv mm nx ct set_iv] in *. subst zn zd. unfold set_iv. cbn [iv dv pv mm nx ct].
  apply runs_seq. apply (runs_xor_three U _ _ _ _ _ _ (at_ k) p1 p2 qp l' (f1 k) (f2 k) pk); cbn [iv dv pv mm nx ct peval P0 ieval]; auto.
  - unfold P0. cbn [peval ieval]. rewrite Z2. reflexivity.
  - rewrite Z1 by lia. exact E1.
  - rewrite Z1 by lia. exact E2.
  - unfold P0. cbn [peval ieval]. rewrite Z1, Ep by lia. reflexivity.
  - intros m' Pm Cm. fold (share k) in Pm. unfold set_mm. cbn [iv dv pv mm nx ct].
    eapply runs_pset; [unfold P0; cbn [pevals peval ieval pv]; rewrite Z2; cbn [nth_error]; reflexivity|].
    apply HQ. unfold vinv, set_pv. cbn [iv dv pv mm nx ct]. split; [intros a Hz; unfold upd; rewrite (proj2 (Nat.eqb_neq a 0) Hz); apply Z1, Hz|].
    split; [unfold upd; cbn [Nat.eqb]; unfold at_; cbn [fst snd]; f_equal; f_equal; lia|]. split; [reflexivity|].
    split; [intros a Hz; unfold upd; rewrite (proj2 (Nat.eqb_neq a 0) Hz); apply Z4, Hz|]. split; [reflexivity|]. split.
    + eapply chg_trans; [exact Z6|apply (chg_sub _ _ _ _ _ qs (T * sB) Cm); unfold at_; cbn [fst snd]; lia| |]; auto.
    + intros i Hi. destruct (Nat.eq_dec i k) as [->|Hne]; [exact Pm|]. apply (pts_chg1 n zm m' _ _ _ _ Cm (Z7 i ltac:(lia))).
      assert (Li : length (share i) = sB).
      { destruct (Hlen i ltac:(lia)) as [F1 F2]. unfold share. rewrite !length_lxor_list; rewrite ?length_lxor_list; congruence. }
      rewrite Li. right. unfold at_. cbn [fst snd]. assert (i * sB + sB <= k * sB) by nia. lia.
Qed.

Lemma vinv0 : vinv 0 st.
Proof.
  destruct H as [(E0 & _) _ _ _ _]. split; [reflexivity|]. split; [rewrite E0; unfold at_; cbn [Nat.mul]; rewrite Nat.add_0_r, <- surjective_pairing; reflexivity|].
  split; [reflexivity|]. split; [reflexivity|]. split; [reflexivity|]. split; [apply chg_refl|]. intros i Hi. lia.
Qed.

Lemma runs_view3 (Q : state -> Prop) : sB mod 4 = 0 -> (forall z, vinv T z -> Q z) -> runs U (c_view3 P) st Q.
Proof.
  intros Hs HQ. unfold c_view3. fold T sB. apply runs_forn with (I := vinv); cbn [ieval].
  - apply vinv0.
  - intros k z Hk Hz. apply (view3_step k z _ Hk); [|exact Hz|auto]. unfold aligned, at_. cbn [snd].
    pose proof (proj1 (proj2 (v3_slab _ _ _ _ _ _ H))) as A. unfold aligned in A. rewrite Nat.add_mod, A, (Nat.mul_mod k sB), Hs by lia.
    rewrite Nat.mul_0_r. reflexivity.
  - exact HQ.
Qed.

Lemma misaligned_loop y : nth_error (pv y 0) 0 = Some (at_ 1) -> (snd (at_ 1)) mod 4 <> 0 -> 4 <= iv y 0 -> run U xor_three_body y = None.
Proof.
  intros E0 A Hl. unfold xor_three_body.
  match goal with |- run U (Seq _ (Seq (For _ _ _ _ ?b) ?r)) _ = None => set (body := b); set (rest := r) end. cbn [run andthen emit]. 
  set (y1 := set_iv y _). assert (F : run U (For 2 (IC 0) (IV 1) 1 body) y1 = None); [|cbn [run] in F; rewrite F; reflexivity].
  assert (Hd : exists d, iv y 0 / 4 = S d). { exists (iv y 0 / 4 - 1). pose proof (Nat.div_le_lower_bound (iv y 0) 4 1 ltac:(lia) ltac:(lia)). lia. }
  destruct Hd as [d Hd]. cbn [run ieval]. change (iv y1 1) with (iv y 0 / 4). rewrite Hd. rewrite Nat.sub_0_r, Nat.div_1_r. replace (S d + (1 - 1)) with (S d) by lia. cbn [loop].
  assert (Ha : run U body (set_iv y1 (upd (iv y1) 2 0)) = None); [|rewrite Ha; reflexivity]. clear Hd d.
  assert (E1 : nth_error (pv (set_iv y1 (upd (iv y1) 2 0)) 0) 0 = Some (at_ 1)) by exact E0. assert (I2 : iv (set_iv y1 (upd (iv y1) 2 0)) 2 = 0) by reflexivity.
  generalize dependent (set_iv y1 (upd (iv y1) 2 0)). intros [yi yd yp ym yn yc] E1 I2. unfold body. cbn [run iv dv pv mm nx ct] in *.
  destruct (peval yi yp (elem 4 (P0 1) (IV 2))) as [x1|]; [|reflexivity]. destruct (valid ym 4 4 x1); [|reflexivity]. unfold set_dv. cbn [andthen emit iv dv pv mm nx ct].
  destruct (peval yi yp (elem 4 (P0 2) (IV 2))) as [x2|]; [|reflexivity]. destruct (valid ym 4 4 x2); [|reflexivity]. cbn [andthen emit iv dv pv mm nx ct].
  destruct (peval yi yp (elem 4 (P0 3) (IV 2))) as [x3|]; [|reflexivity]. destruct (valid ym 4 4 x3); [|reflexivity]. cbn [andthen emit iv dv pv mm nx ct].
  unfold elem, P0. cbn [peval ieval]. rewrite E1, I2. unfold valid. destruct (at_ 1) as [ab ao]. cbn [snd fst] in *. rewrite Nat.mul_0_r, Nat.add_0_r. cbn [snd].
  rewrite (proj2 (Nat.eqb_neq _ _) A), andb_false_r. reflexivity.
Qed.

Lemma view3_misaligned : sB mod 4 <> 0 -> 4 <= sB -> 2 <= T -> run U (c_view3 P) st = None.
Proof.
  intros Hs H4 HT. unfold c_view3. fold T sB.
  set (body := Seq _ _). cbn [run ieval]. rewrite Nat.sub_0_r, Nat.div_1_r. replace (T + (1 - 1)) with (S (S (T - 2))) by lia. cbn [loop].
  assert (A0 : aligned (at_ 0)). { pose proof (proj1 (proj2 (v3_slab _ _ _ _ _ _ H))) as A. unfold aligned, at_ in *. cbn [snd Nat.mul]. rewrite Nat.add_0_r. exact A. }
  pose proof (view3_step 0 st (vinv 1) ltac:(lia) A0 vinv0 ltac:(auto)) as R. fold body in R. unfold runs in R.
  destruct (run U body (set_iv st (upd (iv st) 0 0))) as [[z t]|]; [|reflexivity]. cbn [andthen emit Nat.add].
  destruct R as (Z1 & Z2 & Z3 & _).
  assert (Hb : run U body (set_iv z (upd (iv z) 0 1)) = None); [|rewrite Hb; reflexivity].
  assert (Hx : run U (c_xor_three (P0 0) (PV 1 (IV 0)) (PV 2 (IV 0)) (P0 3) (IC sB)) (set_iv z (upd (iv z) 0 1)) = None); [|unfold body; cbn [run] in *; rewrite Hx; reflexivity].
  unfold c_xor_three, set_iv. cbn [run iv dv pv mm nx ct]. destruct (pargevals _ (pv z) _) as [ps|] eqn:Eps; [|reflexivity].
  rewrite misaligned_loop; [reflexivity| | |cbn [iv map args ieval]; exact H4].
  - cbn [pv]. unfold pargevals in Eps. cbn [pargeval pevals P0 peval ieval] in Eps. unfold P0 in Eps. cbn [peval ieval] in Eps. rewrite Z2 in Eps. cbn [nth_error] in Eps.
    repeat match type of Eps with context [match ?x with _ => _ end] => destruct x; try discriminate Eps end; injection Eps as <-; reflexivity.
  - pose proof (proj1 (proj2 (v3_slab _ _ _ _ _ _ H))) as A. unfold aligned in A. unfold at_. cbn [snd]. rewrite Nat.mul_1_l, Nat.add_mod, A by lia.
    cbn [Nat.add]. rewrite Nat.mod_mod by lia. exact Hs.
Qed.
End S.

Lemma zkb_block_sizes p P : get_param_set p = Some P -> is_picnic3 p = false -> p <> Picnic_L1_full -> stateSizeBytes P mod 4 = 0.
Proof.
  intros HP H3 Hp. assert (C : (is_picnic3 p || (p =? Picnic_L1_full)%N || (stateSizeBytes P mod 4 =? 0)) = true).
  { revert p P HP H3 Hp. intros p P HP _ _. revert p P HP. apply (params_forall (fun p P => is_picnic3 p || (p =? Picnic_L1_full)%N || (stateSizeBytes P mod 4 =? 0))). vm_compute. reflexivity. }
  rewrite H3 in C. destruct (N.eqb_spec p Picnic_L1_full); [contradiction|]. apply Nat.eqb_eq. exact C.
Qed.

Lemma view3_code U p P st qs f1 f2 pk : get_param_set p = Some P -> is_picnic3 p = false -> p <> Picnic_L1_full -> view3_call P st qs f1 f2 pk ->
  exists st' t, run U (c_view3 P) st = Some (st', t) /\
    (forall i, i < numMPCRounds P -> exists s, pts (nx st) (mm st') (fst qs, snd qs + i * stateSizeBytes P) s /\ length s = stateSizeBytes P /\
       forall b, bit s b = xorb (xorb (bit (f1 i) b) (bit (f2 i) b)) (bit pk b)) /\
    chg (nx st) (mm st) (mm st') [(qs, numMPCRounds P * stateSizeBytes P)] /\ nx st' = nx st.
Proof.
  intros HP H3 Hp H. pose proof (runs_view3 U P st qs f1 f2 pk H _ (zkb_block_sizes p P HP H3 Hp) (fun z Hz => Hz)) as R. unfold runs in R.
  destruct (run U (c_view3 P) st) as [[st' t]|]; [|contradiction R]. exists st', t. split; [reflexivity|].
  destruct R as (_ & _ & R3 & _ & _ & R6 & R7). split; [|split; [exact R6|exact R3]]. intros i Hi. exists (lxor_list (lxor_list (f1 i) (f2 i)) pk).
  destruct (v3_len _ _ _ _ _ _ H i Hi) as [L1 L2]. destruct (v3_pk _ _ _ _ _ _ H) as (q & _ & _ & _ & Lp).
  split; [exact (R7 i Hi)|]. split; [rewrite !length_lxor_list; rewrite ?length_lxor_list; congruence|].
  intros b. rewrite !bit_lxor_list; rewrite ?length_lxor_list; congruence.
Qed.

Lemma view3_L1_full U P st qs f1 f2 pk : get_param_set Picnic_L1_full = Some P -> view3_call P st qs f1 f2 pk -> run U (c_view3 P) st = None.
Proof.
  intros HP H. assert (C : negb (stateSizeBytes P mod 4 =? 0) && (4 <=? stateSizeBytes P) && (2 <=? numMPCRounds P) = true)
    by (injection HP as <-; vm_compute; reflexivity).
  apply andb_true_iff in C as [C C3]. apply andb_true_iff in C as [C1 C2]. apply negb_true_iff in C1. apply Nat.eqb_neq in C1. apply Nat.leb_le in C2, C3.
  apply (view3_misaligned U P st qs f1 f2 pk); assumption.
Qed.

(** A memory in which every object has a block of its own: 0 the third shares, 1 the public key, then the shares. *)
Definition view3_memory (P : paramset) (f1 f2 : nat -> bytes) (pk : bytes) : memory := fun b =>
  let T := numMPCRounds P in
  match b with 0 => zeros (T * stateSizeBytes P) | 1 => pk | S (S i) => if i <? T then f1 i else f2 (i - T) end.
Definition view3_start (P : paramset) (f1 f2 : nat -> bytes) (pk : bytes) : state :=
  let T := numMPCRounds P in
  mkState (fun _ => 0) (fun _ => 0%N) (args [] [[(0, 0)]; places 2 T; places (2 + T) T; [(1, 0)]])
    (view3_memory P f1 f2 pk) (2 + (T + T)) 0.
Lemma view3_start_call P f1 f2 pk : (forall i, bytes_ok (f1 i) /\ length (f1 i) = stateSizeBytes P) -> (forall i, bytes_ok (f2 i) /\ length (f2 i) = stateSizeBytes P) ->
  bytes_ok pk -> length pk = stateSizeBytes P -> view3_call P (view3_start P f1 f2 pk) (0, 0) f1 f2 pk.
Proof.
  intros H1 H2 Bk Lk. set (T := numMPCRounds P).
  assert (R : forall b l, b <> 0 -> b < 2 + (T + T) -> view3_memory P f1 f2 pk b = l -> bytes_ok l -> reads (view3_start P f1 f2 pk) [((0, 0), T * stateSizeBytes P)] (b, 0) l).
  { intros b l Hb Hb2 Hl Bl. split; [split; [exact Hb2|intros i x Hx; cbn [fst snd Nat.add]; change (nth_error (view3_memory P f1 f2 pk b) i = Some x); rewrite Hl; exact Hx]|].
    split; [exact Bl|]. intros q k [Hq|[]]. injection Hq as <- <-. left. cbn [fst]. lia. }
  split; fold T.
  - split; [reflexivity|]. split; [reflexivity|]. exists (zeros (T * stateSizeBytes P)). split; [split; [cbn [view3_start nx fst]; lia|intros i x Hx; exact Hx]|apply length_zeros].
  - intros i Hi. exists (2 + i, 0). split; [apply (nth_places 2 T i Hi)|]. split; [|reflexivity]. apply R; [lia|lia| |apply H1].
    cbn [Nat.add view3_memory]. fold T. rewrite (proj2 (Nat.ltb_lt i T) Hi). reflexivity.
  - intros i Hi. exists (2 + T + i, 0). split; [apply (nth_places (2 + T) T i Hi)|]. split; [|reflexivity]. apply R; [lia|lia| |apply H2].
    cbn [Nat.add view3_memory]. fold T. rewrite (proj2 (Nat.ltb_ge (T + i) T)) by lia. f_equal. lia.
  - intros i _. split; [apply H1|apply H2].
  - exists (1, 0). split; [reflexivity|]. split; [apply R; [lia|lia|reflexivity|exact Bk]|]. split; [reflexivity|exact Lk].
Qed.
