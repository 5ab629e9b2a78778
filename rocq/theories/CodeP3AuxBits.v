(** [getAuxBits] and [setAuxBits] on memory with pointers. *)

From Coq Require Import List NArith Arith Bool Lia ZifyBool ZifyNat ZifyN.
From Verif Require Import Base Params Env Spec LowMC Picnic3 MiniC CodeLowMC CodeP3 CodeSpec CodeZkbSpec CodeP3Spec CodeP3Proto BaseFacts ParamFacts LowMCFacts
  ZkbChal P3Tape P3Aux P3Online MiniCFacts CodeRules CodeLowMCProofs CodeHeap CodeZkbProofs CodeZkbBits CodeZkbMpc CodeP3Proofs CodeP3AuxThm.
Import ListNotations.
Local Opaque pack.

(** Copying of single bits. *)
Fixpoint copy_bits (f g : nat -> nat) (src : bytes) (k : nat) (dst : bytes) : bytes :=
  match k with O => dst | S j => set_bit (copy_bits f g src j dst) (f j) (bit src (g j)) end.
Lemma length_copy_bits f g src k dst : length (copy_bits f g src k dst) = length dst.
Proof. induction k as [|k IH]; cbn [copy_bits]; [reflexivity|]. rewrite length_set_bit. exact IH. Qed.

(** Position of bit [p] of the auxiliary bits in the tape. *)
Definition aux_at (n p : nat) : nat := n + n * 2 * (p / n) + p mod n.
Lemma aux_at_row n j i : i < n -> aux_at n (n * j + i) = n + n * 2 * j + i.
Proof.
  intros H. unfold aux_at. assert (D : (n * j + i) / n = j) by (rewrite Nat.mul_comm, Nat.div_add_l, (Nat.div_small i n) by lia; lia).
  assert (M : (n * j + i) mod n = i) by (rewrite Nat.add_comm, Nat.mul_comm, Nat.mod_add by lia; apply Nat.mod_small, H). rewrite D, M. reflexivity.
Qed.
Lemma aux_at_lt n R p : p < n * R -> aux_at n p < 2 * n * R.
Proof.
  intros H. assert (Hn : n <> 0) by (intros ->; lia). assert (p / n < R) by (apply Nat.div_lt_upper_bound; lia). pose proof (Nat.mod_upper_bound p n Hn). unfold aux_at. nia.
Qed.

Section M.
Variable P : paramset.
Let n := stateSizeBits P.
Let R := numRounds P.

Lemma copy_loop f g src (step : nat -> nat -> bytes -> res bytes) dst :
  (forall j i d, j < R -> i < n -> length d = length dst -> step j i d = Ok (set_bit d (f (n * j + i)) (bit src (g (n * j + i))))) ->
  for_loop R 0 (fun j d => for_loop n 0 (step j) d) dst = Ok (copy_bits f g src (n * R) dst).
Proof.
  intros H. assert (X : forall j, j <= R -> for_loop j 0 (fun j d => for_loop n 0 (step j) d) dst = Ok (copy_bits f g src (n * j) dst)); [|apply X; lia].
  induction j as [|j IH]; intros Hj; [cbn; rewrite Nat.mul_0_r; reflexivity|].
  rewrite for_loop_snoc, IH by lia. rewrite bind_Ok. cbn [Nat.add].
  assert (Y : forall i, i <= n -> for_loop i 0 (step j) (copy_bits f g src (n * j) dst) = Ok (copy_bits f g src (n * j + i) dst)).
  { induction i as [|i IHi]; intros Hi; [cbn; rewrite Nat.add_0_r; reflexivity|]. rewrite for_loop_snoc, IHi by lia. rewrite bind_Ok. cbn [Nat.add].
    rewrite H by (try lia; apply length_copy_bits). rewrite Nat.add_succ_r. reflexivity. }
  rewrite (Y n (le_n n)). f_equal. f_equal. lia.
Qed.

Hypothesis HP3 : wfP3 P.

Lemma getAux_copy out tl : rows 16 (p3_tapeSize P) tl -> n * R <= 8 * length out ->
  getAuxBits P out (mkTapes tl 0) = Ok (copy_bits (fun p => p) (aux_at n) (nth 15 tl []) (n * R) out).
Proof.
  intros [Lt HT] Ho. destruct (HT 15 ltac:(lia)) as [L15 B15]. pose proof (tS_bits P HP3) as Hb. fold n R in Hb.
  unfold getAuxBits. rewrite (w3_N P HP3). change (16 - 1) with 15. cbn [tp_tape]. rewrite (rd_ok tl 15 []) by (rewrite Lt; lia). rewrite bind_Ok. fold n R.
  apply (copy_loop (fun p => p) (aux_at n) (nth 15 tl []) (fun j i o => b <- getBit (nth 15 tl []) (n + n * 2 * j + i) ;; setBit o (n * j + i) b)).
  intros j i d Hj Hi Ld. assert (n * j + i < n * R) by (clear - Hj Hi; nia). pose proof (aux_at_lt n R (n * j + i) ltac:(lia)) as A. rewrite aux_at_row in * by exact Hi.
  rewrite getBit_ok by (rewrite L15; apply lt_div8; lia). rewrite bind_Ok. rewrite setBit_ok by (rewrite Ld; apply lt_div8; lia). reflexivity.
Qed.

Lemma setAux_copy a tl : rows 16 (p3_tapeSize P) tl -> n * R <= 8 * length a ->
  setAuxBits P (mkTapes tl 0) a = Ok (mkTapes (list_set tl 15 (copy_bits (aux_at n) (fun p => p) a (n * R) (nth 15 tl []))) 0).
Proof.
  intros [Lt HT] Ho. destruct (HT 15 ltac:(lia)) as [L15 B15]. pose proof (tS_bits P HP3) as Hb. fold n R in Hb.
  unfold setAuxBits. rewrite (w3_N P HP3). change (16 - 1) with 15. cbn [tp_tape tp_pos]. rewrite (rd_ok tl 15 []) by (rewrite Lt; lia). rewrite bind_Ok. fold n R.
  rewrite (copy_loop (aux_at n) (fun p => p) a (fun j i t => b <- getBit a (n * j + i) ;; setBit t (n + n * 2 * j + i) b)).
  - rewrite bind_Ok. rewrite wr_ok by (rewrite Lt; lia). reflexivity.
  - intros j i d Hj Hi Ld. assert (n * j + i < n * R) by (clear - Hj Hi; nia). pose proof (aux_at_lt n R (n * j + i) ltac:(lia)) as A. rewrite aux_at_row in * by exact Hi.
    rewrite getBit_ok by (apply lt_div8; lia). rewrite bind_Ok. rewrite setBit_ok by (rewrite Ld, L15; apply lt_div8; lia). reflexivity.
Qed.

Variables (U : nat -> nat -> bytes) (n0 : nat) (m0 : memory).
Notation heap := (heap n0 m0).
Notation ro := (ro n0 m0).

(** One region is written, [src] is read. *)
Lemma h_getAux L y c q tape (Q : state -> Prop) : pv y 0 = [reg L 0] -> nth_error (pv y 1) 15 = Some q -> ro L q tape -> 0 < cnt L ->
  n * R <= 8 * sz L 0 -> 2 * n * R <= 8 * length tape -> heap L (nx y) (mm y) c ->
  (forall m' u, heap L (nx y) m' (cset c 0 (copy_bits (fun p => p) (aux_at n) tape (n * R) (c 0))) -> Q (mkState (iv y) (dv y) (pv y) m' (nx y) u)) ->
  runs U (c_getAuxBits P (P0 0) 1) y Q.
Proof.
  intros Hp Hq Hro Hc Hs Ht H HQ. unfold c_getAuxBits. eapply runs_call; [unfold P0; cbn [pargevals pargeval pevals peval]; rewrite Hp; cbn [ieval nth_error]; reflexivity|]. cbn [map ieval].
  unfold getAuxBits_body. fold n R. rewrite (w3_N P HP3). change (16 - 1) with 15. set (pv1 := args [] [[reg L 0]; pv y 1]).
  set (D k := cset c 0 (copy_bits (fun p => p) (aux_at n) tape k (c 0))).
  apply runs_seq, runs_iset. csimpl.
  apply runs_forn with (I := fun j z => pv z = pv1 /\ nx z = nx y /\ iv z 0 = n * j /\ heap L (nx y) (mm z) (D (n * j))).
  - csimpl. repeat (split; [first [reflexivity|lia]|]). apply (heap_ext _ _ _ _ _ _ _ H). intros k Hk. unfold D. rewrite Nat.mul_0_r. cbn [copy_bits]. unfold cset. destruct (Nat.eqb_spec k 0) as [->|]; reflexivity.
  - csimpl. intros j z Hj (Z1 & Z2 & Z3 & Hz). destruct z as [zi zd zp zm zn zc]. cbn [iv dv pv mm nx ct] in *. subst zp zn.
    apply runs_forn with (I := fun i z => pv z = pv1 /\ nx z = nx y /\ iv z 0 = n * j + i /\ iv z 1 = j /\ heap L (nx y) (mm z) (D (n * j + i))).
    + csimpl. rewrite Nat.add_0_r. split; [reflexivity|]. split; [reflexivity|]. split; [exact Z3|]. split; [reflexivity|exact Hz].
    + csimpl. intros i w Hi (W1 & W2 & W3 & W4 & Hw). destruct w as [wi wd wp wm wn wc]. cbn [iv dv pv mm nx ct] in *. subst wp wn.
      assert (B1 : n * j + i < n * R) by (clear - Hj Hi; nia). pose proof (aux_at_lt n R _ B1) as B2. rewrite aux_at_row in B2 by exact Hi.
      apply runs_seq. eapply (runs_getBit U 0 _ _ _ q tape).
      { unfold pv1. csimpl. exact Hq. } { csimpl. exact (heap_ro _ _ _ _ _ _ q tape Hw Hro). } { csimpl. rewrite W4. apply lt_div8. lia. }
      csimpl. rewrite W4. apply runs_seq.
      eapply (h_setBit n0 m0 U L _ _ _ _ _ 0 (bit tape (n + n * 2 * j + i))).
      { exact Hw. } { exact Hc. } { unfold pv1. csimpl. reflexivity. } { csimpl. rewrite W3. lia. } { csimpl. apply b2n_mod. }
      csimpl. rewrite W3. intros m2 Hm2. apply runs_iset. csimpl. split; [reflexivity|]. split; [reflexivity|]. split; [rewrite W3; lia|]. split; [first [exact W4|reflexivity]|].
      apply (heap_ext _ _ _ _ _ _ _ Hm2). intros k Hk. unfold D. rewrite Nat.add_succ_r. cbn [copy_bits]. rewrite aux_at_row by exact Hi. unfold cset. destruct (k =? 0); reflexivity.
    + csimpl. intros w (W1 & W2 & W3 & W4 & Hw). split; [exact W1|]. split; [exact W2|]. split; [rewrite W3; lia|]. replace (n * S j) with (n * j + n) by lia. exact Hw.
  - csimpl. intros z (Z1 & Z2 & Z3 & Hz). rewrite Z2. apply HQ. exact Hz.
Qed.

Lemma h_setAux L y c q a (Q : state -> Prop) : nth_error (pv y 0) 15 = Some (reg L 0) -> pv y 1 = [q] -> ro L q a -> 0 < cnt L ->
  2 * n * R <= 8 * sz L 0 -> n * R <= 8 * length a -> heap L (nx y) (mm y) c ->
  (forall m' u, heap L (nx y) m' (cset c 0 (copy_bits (aux_at n) (fun p => p) a (n * R) (c 0))) -> Q (mkState (iv y) (dv y) (pv y) m' (nx y) u)) ->
  runs U (c_setAuxBits P 0 (P0 1)) y Q.
Proof.
  intros Hp Hq Hro Hc Hs Ht H HQ. unfold c_setAuxBits. eapply runs_call; [unfold P0; cbn [pargevals pargeval pevals peval]; rewrite Hq; cbn [ieval nth_error]; reflexivity|]. cbn [map ieval].
  unfold setAuxBits_body. fold n R. rewrite (w3_N P HP3). change (16 - 1) with 15. set (pv1 := args [] [pv y 0; [q]]).
  set (D k := cset c 0 (copy_bits (aux_at n) (fun p => p) a k (c 0))).
  apply runs_seq, runs_iset. csimpl.
  apply runs_forn with (I := fun j z => pv z = pv1 /\ nx z = nx y /\ iv z 0 = n * j /\ heap L (nx y) (mm z) (D (n * j))).
  - csimpl. repeat (split; [first [reflexivity|lia]|]). apply (heap_ext _ _ _ _ _ _ _ H). intros k Hk. unfold D. rewrite Nat.mul_0_r. cbn [copy_bits]. unfold cset. destruct (Nat.eqb_spec k 0) as [->|]; reflexivity.
  - csimpl. intros j z Hj (Z1 & Z2 & Z3 & Hz). destruct z as [zi zd zp zm zn zc]. cbn [iv dv pv mm nx ct] in *. subst zp zn.
    apply runs_forn with (I := fun i z => pv z = pv1 /\ nx z = nx y /\ iv z 0 = n * j + i /\ iv z 1 = j /\ heap L (nx y) (mm z) (D (n * j + i))).
    + csimpl. rewrite Nat.add_0_r. split; [reflexivity|]. split; [reflexivity|]. split; [exact Z3|]. split; [reflexivity|exact Hz].
    + csimpl. intros i w Hi (W1 & W2 & W3 & W4 & Hw). destruct w as [wi wd wp wm wn wc]. cbn [iv dv pv mm nx ct] in *. subst wp wn.
      assert (B1 : n * j + i < n * R) by (clear - Hj Hi; nia). pose proof (aux_at_lt n R _ B1) as B2. rewrite aux_at_row in B2 by exact Hi.
      apply runs_seq. eapply (runs_getBit U 0 _ _ _ q a).
      { unfold pv1. csimpl. reflexivity. } { csimpl. exact (heap_ro _ _ _ _ _ _ q a Hw Hro). } { csimpl. rewrite W3. apply lt_div8. lia. }
      csimpl. rewrite W3. apply runs_seq, runs_iset. csimpl.
      eapply (h_setBit n0 m0 U L _ _ _ _ _ 0 (bit a (n * j + i))).
      { exact Hw. } { exact Hc. } { unfold pv1. csimpl. exact Hp. } { csimpl. rewrite W4. lia. } { csimpl. apply b2n_mod. }
      csimpl. rewrite W4. intros m2 Hm2. split; [reflexivity|]. split; [reflexivity|]. split; [rewrite W3; lia|]. split; [first [exact W4|reflexivity]|].
      apply (heap_ext _ _ _ _ _ _ _ Hm2). intros k Hk. unfold D. rewrite Nat.add_succ_r. cbn [copy_bits]. rewrite aux_at_row by exact Hi. unfold cset. destruct (k =? 0); reflexivity.
    + csimpl. intros w (W1 & W2 & W3 & W4 & Hw). split; [exact W1|]. split; [exact W2|]. split; [rewrite W3; lia|]. replace (n * S j) with (n * j + n) by lia. exact Hw.
  - csimpl. intros z (Z1 & Z2 & Z3 & Hz). rewrite Z2. apply HQ. exact Hz.
Qed.
End M.

Lemma apart1 p k : apart [(p, k)].
Proof. intros i j x a y b Hi Hj Hne. destruct i as [|[|i]]; cbn in Hi; try discriminate. destruct j as [|[|j]]; cbn in Hj; try discriminate. lia. Qed.

Lemma getAuxBits_code U P st tl out q : wfP3 P -> get_call P st tl out q ->
  exists st' t o, run U (c_getAuxBits P (P0 0) 1) st = Some (st', t) /\ getAuxBits P out (mkTapes tl 0) = Ok o /\
    pts (nx st) (mm st') q o /\ length o = length out /\
    (forall j i, j < numRounds P -> i < stateSizeBits P -> bit o (stateSizeBits P * j + i) = bit (nth 15 tl []) (2 * stateSizeBits P * j + stateSizeBits P + i)) /\
    (forall p, stateSizeBits P * numRounds P <= p -> bit o p = bit out p) /\
    chg (nx st) (mm st) (mm st') [(q, length out)] /\ iv st' = iv st /\ dv st' = dv st /\ pv st' = pv st /\ nx st' = nx st.
Proof.
  intros HP [[Lt HT] (Ep & [Pq Bq] & Ho) (qt & Eq & Rq)]. pose proof (tS_bits P HP) as Hb.
  assert (HR : rows 16 (p3_tapeSize P) tl) by (split; [exact Lt|exact HT]).
  pose proof (getAux_copy P HP out tl HR Ho) as F. set (o := copy_bits _ _ _ _ _) in F.
  assert (H0 : heap (nx st) (mm st) (lay_of [(q, length out)]) (nx st) (mm st) (fun _ => out)).
  { apply heap_of; [|apply apart1]. intros k p s Hk. destruct k as [|[|k]]; cbn in Hk; try discriminate. injection Hk as <- <-. auto. }
  assert (X : runs U (c_getAuxBits P (P0 0) 1) st (fun y => pts (nx st) (mm y) q o /\ chg (nx st) (mm st) (mm y) [(q, length out)] /\ iv y = iv st /\ dv y = dv st /\ pv y = pv st /\ nx y = nx st)).
  { apply (h_getAux P HP U (nx st) (mm st) (lay_of [(q, length out)]) st (fun _ => out) qt (nth 15 tl [])); [exact Ep|exact Eq|apply ro_of, Rq|cbn; lia|exact Ho| |exact H0|].
    - rewrite (proj1 (HT 15 ltac:(lia))). exact Hb.
    - intros m' u Hm. cbn [iv dv pv mm nx]. split; [exact (heap_pts _ _ _ _ _ _ Hm 0 ltac:(cbn; lia))|]. split; [|auto]. pose proof (heap_chg _ _ _ _ _ _ Hm) as A. rewrite regions_of in A. exact A. }
  unfold runs in X. destruct (run U _ st) as [[y t]|]; [|contradiction]. destruct X as (X1 & X2 & X3).
  exists y, t, o. split; [reflexivity|]. split; [exact F|]. split; [exact X1|]. split; [apply length_copy_bits|].
  pose proof (getAuxBits_ok P HP out tl 0 HR Ho Bq) as G. rewrite F in G. cbn [ok] in G. destruct G as (_ & _ & G).
  destruct (aux_of_spec P HP tl) as (_ & _ & A & _).
  split; [|split; [|split; [exact X2|exact X3]]].
  - intros j i Hj Hi. assert (n : stateSizeBits P * j + i < stateSizeBits P * numRounds P) by (clear - Hj Hi; nia). rewrite G, (proj2 (Nat.ltb_lt _ _) n). apply A; auto.
  - intros p Hp. rewrite G, (proj2 (Nat.ltb_ge _ _) Hp). reflexivity.
Qed.

Lemma setAuxBits_code U P st tl a qt : wfP3 P -> set_call P st tl a qt ->
  exists st' t T, run U (c_setAuxBits P 0 (P0 1)) st = Some (st', t) /\ setAuxBits P (mkTapes tl 0) a = Ok (mkTapes T 0) /\
    (forall i, i < 15 -> nth i T [] = nth i tl []) /\ pts (nx st) (mm st') qt (nth 15 T []) /\ length (nth 15 T []) = 2 * andSizeBytes P /\
    (forall j i, j < numRounds P -> i < stateSizeBits P ->
       bit (nth 15 T []) (2 * stateSizeBits P * j + stateSizeBits P + i) = bit a (stateSizeBits P * j + i) /\
       bit (nth 15 T []) (2 * stateSizeBits P * j + i) = bit (nth 15 tl []) (2 * stateSizeBits P * j + i)) /\
    chg (nx st) (mm st) (mm st') [(qt, 2 * andSizeBytes P)] /\ iv st' = iv st /\ dv st' = dv st /\ pv st' = pv st /\ nx st' = nx st.
Proof.
  intros HP [[Lt HT] [Eq [Pq Bq]] (q & Ep & Rq & La)]. pose proof (tS_bits P HP) as Hb.
  assert (HR : rows 16 (p3_tapeSize P) tl) by (split; [exact Lt|exact HT]).
  pose proof (setAux_copy P HP a tl HR La) as F. set (o := copy_bits _ _ _ _ _) in F.
  assert (L15 : length (nth 15 tl []) = 2 * andSizeBytes P) by (apply HT; lia).
  assert (H0 : heap (nx st) (mm st) (lay_of [(qt, 2 * andSizeBytes P)]) (nx st) (mm st) (fun _ => nth 15 tl [])).
  { apply heap_of; [|apply apart1]. intros k p s Hk. destruct k as [|[|k]]; cbn [nth_error] in Hk; try discriminate. injection Hk as <- <-. auto. }
  assert (X : runs U (c_setAuxBits P 0 (P0 1)) st (fun y => pts (nx st) (mm y) qt o /\ chg (nx st) (mm st) (mm y) [(qt, 2 * andSizeBytes P)] /\ iv y = iv st /\ dv y = dv st /\ pv y = pv st /\ nx y = nx st)).
  { apply (h_setAux P HP U (nx st) (mm st) (lay_of [(qt, 2 * andSizeBytes P)]) st (fun _ => nth 15 tl []) q a); [exact Eq|exact Ep|apply ro_of, Rq|cbn; lia|exact Hb|exact La|exact H0|].
    intros m' u Hm. cbn [iv dv pv mm nx]. split; [exact (heap_pts _ _ _ _ _ _ Hm 0 ltac:(cbn; lia))|]. split; [|auto]. pose proof (heap_chg _ _ _ _ _ _ Hm) as A. rewrite regions_of in A. exact A. }
  unfold runs in X. destruct (run U _ st) as [[y t]|]; [|contradiction]. destruct X as (X1 & X2 & X3).
  assert (N15 : nth 15 (list_set tl 15 o) [] = o) by (rewrite nth_list_set by (rewrite Lt; lia); reflexivity).
  exists y, t, (list_set tl 15 o). split; [reflexivity|]. split; [exact F|]. rewrite N15.
  split; [intros i Hi; rewrite nth_list_set by (rewrite Lt; lia); destruct (Nat.eqb_spec i 15); [lia|reflexivity]|].
  split; [exact X1|]. split; [unfold o; rewrite length_copy_bits; exact L15|]. split; [|split; [exact X2|exact X3]].
  rewrite (setAuxBits_ok P HP tl 0 a HR La) in F. assert (FT : with_aux P tl a = list_set tl 15 o) by congruence.
  destruct (with_aux_spec P HP tl a HR) as (_ & _ & W3 & _ & W5). rewrite FT in W3, W5. unfold tbit in W3, W5. rewrite N15 in W3, W5.
  intros j i Hj Hi. split; [apply W5|apply W3]; auto.
Qed.

Lemma auxBits_constant_time U U' P x y : locals_ok U -> locals_ok U' -> same_public x y ->
  observed (run U (c_getAuxBits P (P0 0) 1) x) = observed (run U' (c_getAuxBits P (P0 0) 1) y) /\
  observed (run U (c_setAuxBits P 0 (P0 1)) x) = observed (run U' (c_setAuxBits P 0 (P0 1)) y).
Proof. intros HU HU' H. split; apply observed_same; auto. Qed.

Lemma pts_prefix n m p a o : pts n m p a -> pts n m p o -> length a <= length o -> a = firstn (length a) o.
Proof.
  intros [_ A] [_ B] L. apply nth_error_ext. intros i. destruct (Nat.lt_ge_cases i (length a)) as [Hi|Hi].
  - assert (Ea : nth_error a i = Some (nth i a 0%N)) by (apply List.nth_error_nth'; exact Hi). assert (Eo : nth_error o i = Some (nth i o 0%N)) by (apply List.nth_error_nth'; lia).
    assert (Ef : nth_error (firstn (length a) o) i = nth_error o i) by (rewrite <- (firstn_skipn (length a) o) at 2; rewrite nth_error_app1 by (rewrite firstn_length; lia); reflexivity).
    rewrite Ef. pose proof (A i _ Ea) as X. pose proof (B i _ Eo) as Y. rewrite Ea, Eo. congruence.
  - rewrite (proj2 (nth_error_None a i)) by exact Hi. symmetry. apply nth_error_None. rewrite firstn_length. lia.
Qed.

(** Bits taken from the signer's last tape and put into a verifier's. *)
Lemma auxBits_transfer U U2 P st st2 tl tl2 out a q qt st' t : wfP3 P -> get_call P st tl out q -> set_call P st2 tl2 a qt ->
  run U (c_getAuxBits P (P0 0) 1) st = Some (st', t) -> pts (nx st) (mm st') q a -> length a <= length out ->
  (forall j i, j < numRounds P -> i < stateSizeBits P -> bit (nth 15 tl2 []) (2 * stateSizeBits P * j + i) = bit (nth 15 tl []) (2 * stateSizeBits P * j + i)) ->
  exists st2' t2 T, run U2 (c_setAuxBits P 0 (P0 1)) st2 = Some (st2', t2) /\ pts (nx st2) (mm st2') qt T /\ length T = 2 * andSizeBytes P /\
    forall p, p < 2 * stateSizeBits P * numRounds P -> bit T p = bit (nth 15 tl []) p.
Proof.
  intros HP HG HS Hr Ha La Hb. destruct (getAuxBits_code U P st tl out q HP HG) as (z & tz & o & Rz & _ & Po & Lo & Bo & _). rewrite Hr in Rz. injection Rz as <- <-.
  destruct (setAuxBits_code U2 P st2 tl2 a qt HP HS) as (st2' & t2 & T & R2 & _ & _ & PT & LT & BT & _).
  exists st2', t2, (nth 15 T []). split; [exact R2|]. split; [exact PT|]. split; [exact LT|].
  destruct (sc_in _ _ _ _ _ HS) as (_ & _ & _ & Ln).
  intros p Hp. destruct (tape_cases P HP p Hp) as (j & i & Hj & Hi & [->| ->]).
  - rewrite (proj2 (BT j i Hj Hi)). apply Hb; auto.
  - rewrite (proj1 (BT j i Hj Hi)). rewrite <- (Bo j i Hj Hi). rewrite (pts_prefix _ _ _ _ _ Ha Po) by lia. apply bit_firstn. assert (stateSizeBits P * j + i < stateSizeBits P * numRounds P) by (clear - Hj Hi; nia). lia.
Qed.
