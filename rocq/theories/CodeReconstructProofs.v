(** reconstructSeeds on memory. *)

From Coq Require Import List NArith Arith Bool Lia ZifyBool ZifyNat ZifyN.
From Verif Require Import Base Params Env Spec MiniC CodeLowMC CodeSpec HashSpec CodeKeccakSpec CodeZkbSpec CodeHashUses Tree TreeSpec CodeTree CodeTreeSpec
  BaseFacts ParamFacts HashProofs MiniCFacts CodeRules CodeLowMCProofs CodeHeap CodeP3Lin CodeSignRules TreeShape TreeSeed TreeReveal TreeOpen TreeTop CodeTreeProofs
  P3Tape P3Round P3Seeds ZkbppSpec ZkbppProofs KkwSpec KkwTree KkwNodes CodeWitness CodeTreeThm CodeReconstruct CodeReconstructSpec.
Import ListNotations.

Section G.
Variables (U : nat -> nat -> bytes) (HU : locals_ok U) (E : env) (P : paramset) (n : nat).
Notation Es := (with_shake E).
Notation D := (Nat.log2_up n).
Notation nn := (node_count n).
Notation s := (seedSizeBytes P).
Hypothesis Hs0 : 0 < s <= 32.
Hypothesis Hsalt : saltSizeBytes P <= 64.
Hypothesis Hn : 2 <= n.
Hypothesis HB : D < 30.
Variables (st : state) (q : nat -> ptr) (input salt : bytes) (rep : nat).
Hypothesis HM : again_call P n st q input salt.
Let n0 := nx st.
Let m0 := mm st.
Notation vl := (tree_layout n s q).

Definition rebuild (t : tree) (rv : list nat) (k : nat) : res (option tree) :=
  bind (put_revealed s t rv input (k * s) (length input - k * s)) (fun r =>
    match r with None => Ok None | Some (t, _) => bind (expandSeeds Es P t salt rep) (fun t => Ok (Some t)) end).

Lemma ro_from p l o : ro n0 m0 vl p l -> o <= length l -> ro n0 m0 vl (fst p, snd p + o) (skipn o l).
Proof.
  intros [A B] H. split.
  - pose proof (pts_sub _ _ _ _ o (length l - o) A ltac:(lia)) as K. rewrite firstn_all2 in K by (rewrite skipn_length; lia). exact K.
  - intros k Hk. specialize (B k Hk). rewrite skipn_length. unfold disj in *. cbn [fst snd]. lia.
Qed.

Lemma run_put_revealed rv : forall k c z t o (Q : state -> Prop), at_st n0 m0 vl n0 (pv st) c z -> trel n D c t -> shape n D s t ->
  Forall (fun r => r < nn) rv -> k * s <= length input -> rebuild t rv k = Ok o ->
  (forall z' c', nx z' = n0 -> heap n0 m0 vl n0 (mm z') c' -> iv z' 5 = match o with Some _ => 0 | None => 1 end ->
     (forall T, o = Some T -> trel n D c' T /\ shape n D s T) -> Q z') ->
  runs U (c_put_revealed P (num_nodes n) rep (length input) k rv) z Q.
Proof.
  induction rv as [|r rv IH]; intros k c z t o Q X T H F Hk M HQ; unfold rebuild in M; cbn [put_revealed bind] in M; cbn [c_put_revealed].
  - destruct (expandSeeds Es P t salt rep) as [T'| | |] eqn:MT; cbn [bind] in M; try discriminate. injection M as <-.
    destruct (ag_salt _ _ _ _ _ _ HM) as (qs & E4 & R4 & L4). destruct (ag_rc _ _ _ _ _ _ HM) as (qr & E0 & R0 & A0).
    apply runs_seq. apply (run_expandSeeds U HU E P n Hs0 Hsalt Hn HB st q salt rep qs qr (ag_tree _ _ _ _ _ _ HM) E4 R4 L4 E0 R0 A0 z c t T' _ X T H MT).
    intros z1 c1 _ B1 H1 T1 S1. apply runs_iset. apply (HQ _ c1); [exact B1|exact H1|cbn [set_iv iv]; apply upd_eq|].
    intros T2 [= <-]. split; assumption.
  - inversion F as [|? ? Fr Fv]; subst.
    eapply runs_if; [cbn [ceval ieval]; reflexivity|]. destruct (Nat.ltb_spec (length input) (k * s + s)) as [L|L].
    + assert (C : length input - k * s <? s = true) by (apply Nat.ltb_lt; lia). rewrite C in M. cbn [bind] in M. injection M as <-.
      destruct X as (A & B & Hh). apply runs_iset. apply (HQ _ c); [exact B|exact Hh|cbn [set_iv iv]; apply upd_eq|discriminate].
    + assert (C : length input - k * s <? s = false) by (apply Nat.ltb_ge; lia). rewrite C in M. rewrite slice_ok in M by lia. cbn [bind] in M.
      set (d := firstn s (skipn (k * s) input)) in *. assert (Ld : length d = s) by (unfold d; rewrite firstn_length, skipn_length; lia).
      destruct (ag_input _ _ _ _ _ _ HM) as (qi & E3 & R3).
      assert (Ri : ro n0 m0 vl (fst qi, snd qi + k * s) (skipn (k * s) input)) by (apply ro_from; [exact (tree_ro n s st q _ _ R3)|exact Hk]).
      pose proof X as (A & B & Hh0). pose proof (eq_ind_r (fun x => heap n0 m0 vl x (mm z) _) Hh0 B) as Hh. cbn beta in Hh.
      pose proof (ag_tree _ _ _ _ _ _ HM) as HN. assert (Hc : CodeHeap.cnt vl = nn + 2) by reflexivity.
      apply runs_seq. apply (h_memcpy_part n0 m0 U vl _ _ _ z c r (fst qi, snd qi + k * s) (skipn (k * s) input)); cbn [ieval].
      * cbn [peval ieval]. rewrite A. apply (nt_nodes _ _ _ _ HN). exact Fr.
      * cbn [peval P0 ieval]. rewrite A, E3. cbn [nth_error]. destruct qi. reflexivity.
      * lia.
      * intros Heq. destruct Ri as [_ Dj]. specialize (Dj r ltac:(lia)). cbn [tree_layout reg sz] in Dj, Heq. rewrite part_node in Dj by exact Fr. rewrite <- Heq in Dj.
        unfold disj in Dj. rewrite skipn_length in Dj. cbn [fst snd] in Dj. lia.
      * left. exact Ri.
      * apply Forall_skipn. apply R3.
      * cbn [tree_layout sz]. rewrite part_node by exact Fr. lia.
      * rewrite skipn_length. lia.
      * lia.
      * exact Hh.
      * intros m1 H1. fold d in H1. rewrite CodeSignProofs.blit_list_all in H1 by (rewrite Ld, (heap_len _ _ _ _ _ _ Hh r) by lia; apply (part_node n s), Fr).
        pose proof (put_node_eq s n D t r d H Fr Ld) as Pe. rewrite Pe in M. cbn [bind] in M. set (t1 := set_node _ _ _) in *.
        assert (S1 : shape n D s t1) by (apply (put_shape s n D t r d t1 H Fr Ld); exact Pe).
        apply runs_seq. apply (g_set_have n0 m0 U vl n0 (pv st) nn ltac:(lia) (part_rest n s nn ltac:(lia)) (part_rest n s (nn + 1) ltac:(lia)) (nt_have _ _ _ _ HN) (cset c r d)); [|exact Fr|].
        { split; [exact A|]. split; [exact B|]. exact (eq_ind _ (fun x => heap n0 m0 vl x m1 _) H1 _ B). }
        intros z2 X2. rewrite cset_neq in X2 by lia. apply (IH (S k) _ z2 t1 o Q X2); [exact (trel_put s n D c t r d H Fr T)|exact S1|exact Fv|cbn [Nat.mul]; lia| |exact HQ].
        unfold rebuild. replace (S k * s) with (k * s + s) by (cbn [Nat.mul]; lia). replace (length input - (k * s + s)) with (length input - k * s - s) by lia. exact M.
Qed.

Lemma run_again t rv o (Q : state -> Prop) : createTree n s = Ok t -> Forall (fun r => r < nn) rv -> rebuild t rv 0 = Ok o ->
  (forall z' c', nx z' = n0 -> heap n0 m0 vl n0 (mm z') c' -> iv z' 5 = match o with Some _ => 0 | None => 1 end ->
     (forall T, o = Some T -> trel n D c' T /\ shape n D s T) -> Q z') ->
  runs U (c_seeds_again P n rep (length input) rv) st Q.
Proof.
  intros M0 F M HQ. pose proof (createTree_ok n D Hn eq_refl HB s) as K0. rewrite M0 in K0. destruct K0 as [H0 _].
  unfold c_seeds_again. apply runs_seq. apply (run_create U n s Hn HB st q (ag_tree _ _ _ _ _ _ HM) t _ M0 H0). intros z c X T0.
  apply (run_put_revealed rv 0 c z t o Q X T0 H0 F ltac:(lia) M HQ).
Qed.
End G.

Lemma log_small n : n <= 1024 -> Nat.log2_up n < 30.
Proof. intros H. pose proof (Nat.log2_up_le_mono n 1024 H) as K. change (Nat.log2_up 1024) with 10 in K. lia. Qed.

Theorem again_code U E p P sp n rep st q hide input salt :
  locals_ok U -> env_bytes_ok E -> get_param_set p = Some P -> is_picnic3 p = true -> table2 p = Some sp -> 2 <= n <= 1024 ->
  Forall (fun l => l < n) hide -> hide <> [] -> again_call P n st q input salt -> length input <= length (reveal n hide) * seedSizeBytes P ->
  exists st' t, run U (c_seeds_again P n rep (length input) (reveal n hide)) st = Some (st', t) /\ nx st' = nx st /\
    chg (nx st) (mm st) (mm st') (tree_parts n (seedSizeBytes P) q) /\
    (length input < length (reveal n hide) * seedSizeBytes P -> iv st' 5 = 1) /\
    (length input = length (reveal n hide) * seedSizeBytes P -> iv st' 5 = 0 /\
      (forall l, l < n -> ~ In l hide -> CodeZkbSpec.holds st' (q (node_count n - n + l)) (recover_leaf (with_shake E) sp n hide input salt rep l)) /\
      (forall root, length root = seedSizeBytes P -> input = reveal_seeds (with_shake E) sp n root salt rep hide ->
        forall l, l < n -> ~ In l hide -> CodeZkbSpec.holds st' (q (node_count n - n + l)) (seed_leaf (with_shake E) sp n root salt rep l)) /\
      (exists b, CodeZkbSpec.holds st' (q (node_count n)) b /\ marks_open n hide b)).
Proof.
  intros HU HE HP H3 Htab Hn Hh Hne HM Hl. destruct (seed_sizes p P HP) as [Hs Hsalt]. pose proof (shake_env E HE) as HEs.
  pose proof (get_param_set_wfP3 _ _ HP H3) as HP3. destruct (table2_conforms p P HP) as (sp' & Htab' & CF). assert (sp' = sp) as -> by congruence.
  pose proof (log_small n (proj2 Hn)) as HB. set (D := Nat.log2_up n) in *. destruct (ag_salt _ _ _ _ _ _ HM) as (_ & _ & _ & L4).
  assert (HnD : n <= 2 ^ D) by (apply Nat.log2_up_spec; lia).
  rewrite <- (reveal_eq n Hn hide Hh) in *. set (rv := rvs n hide) in *. set (s := seedSizeBytes P) in *.
  pose proof (createTree_ok n D (proj1 Hn) eq_refl HB s) as H. apply ok_ex in H. destruct H as (t0 & He & Ht & _ & Hv).
  destruct (rvs_ok n Hn hide s t0 Hh Ht) as [Hr Hr']. fold rv in Hr, Hr'. pose proof Hr' as (Hnd & Hin & _).
  assert (Hlt : forall r, In r rv -> r < nN n D).
  { intros r Hr1. apply Hin in Hr1. apply Rv_ext in Hr1; auto; [|lia]. apply (ext_lt n D r Hr1). }
  assert (F : Forall (fun r => r < node_count n) rv) by (apply Forall_forall; exact Hlt).
  pose proof (rvs_le n Hn hide Hh) as Hle. fold rv in Hle.
  assert (Hi : exceeds_int (length input) = false).
  { apply small_int. assert (length rv * s <= 1024 * 32) by (apply Nat.mul_le_mono; lia). lia. }
  assert (G : forall o, rebuild E P input salt rep t0 rv 0 = Ok o -> exists st' t c, run U (c_seeds_again P n rep (length input) rv) st = Some (st', t) /\ nx st' = nx st /\
    heap (nx st) (mm st) (tree_layout n s q) (nx st) (mm st') c /\ iv st' 5 = match o with Some _ => 0 | None => 1 end /\ (forall T, o = Some T -> trel n D c T /\ shape n D s T)).
  { intros o Mo. assert (R : runs U (c_seeds_again P n rep (length input) rv) st (fun z => nx z = nx st /\ exists c, heap (nx st) (mm st) (tree_layout n s q) (nx st) (mm z) c /\ iv z 5 = match o with Some _ => 0 | None => 1 end /\ (forall T, o = Some T -> trel n D c T /\ shape n D s T))).
    { apply (run_again U HU E P n Hs Hsalt (proj1 Hn) HB st q input salt rep HM t0 rv o _ He F Mo). intros z c A1 A2 A3 A4. split; [exact A1|]. exists c. auto. }
    unfold runs in R. destruct (run U _ st) as [[z t]|]; [|destruct R]. destruct R as (A & c & B & C & K). exists z, t, c. auto. }
  destruct (Nat.eq_dec (length input) (length rv * s)) as [El|El].
  - destruct (reconstructSeeds_ok (with_shake E) P HEs Hs n D (proj1 Hn) eq_refl HB salt rep ltac:(lia) hide Hh t0 rv input Ht Hv Hne Hr Hr' El Hi) as (T & Mr & Sh & Lf & _ & _ & _).
    assert (Mo : rebuild E P input salt rep t0 rv 0 = Ok (Some T)).
    { unfold reconstructSeeds in Mr. rewrite Hi, Hr in Mr. cbn [bind] in Mr. unfold rebuild. rewrite Nat.mul_0_l, Nat.sub_0_r. exact Mr. }
    destruct (G _ Mo) as (st' & t & c & R & A & H & I5 & K). destruct (K T eq_refl) as [(T1 & T2 & T3) _]. clear K G.
    change (nN n D) with (node_count n) in *.
    assert (G : forall k, k < node_count n + 2 -> CodeZkbSpec.holds st' (q k) (c k)).
    { intros k Hk. split; [rewrite A; exact (heap_pts _ _ _ _ _ _ H k Hk)|exact (heap_ok _ _ _ _ _ _ H k Hk)]. }
    exists st', t. split; [exact R|]. split; [exact A|]. split; [exact (heap_chg _ _ _ _ _ _ H)|]. split; [lia|]. intros _. split; [exact I5|].
    assert (Ef : forall l, node_count n - n + l = nF D + l) by (intros l; unfold node_count, nF; fold D; pose proof (pow_pos D); lia).
    assert (Lv : forall l, l < n -> ~ In l hide -> CodeZkbSpec.holds st' (q (node_count n - n + l)) (recover_leaf (with_shake E) sp n hide input salt rep l)).
    { intros l Hll Hnin. rewrite Ef. assert (Hx : nF D + l < node_count n) by (rewrite <- Ef; unfold node_count; lia).
      rewrite (recover_leaf_eq (with_shake E) P sp HP3 CF HEs n Hn salt ltac:(rewrite L4; apply (cf_salt P sp CF)) hide input rep l Hh Hne El Hll Hnin).
      assert (Hsr : srec (with_shake E) P n hide input salt rep = T) by (unfold srec; fold s; rewrite He; cbn [bind]; rewrite Mr; reflexivity).
      rewrite Hsr. change (Nat.log2_up n) with D. rewrite <- (T1 _ Hx). apply G. lia. }
    split; [exact Lv|]. split.
    + intros root Lr Ei l Hll Hnin. specialize (Lv l Hll Hnin). assert (L4' : length salt = 32) by (rewrite L4; apply (cf_salt P sp CF)).
      rewrite (recover_leaf_eq (with_shake E) P sp HP3 CF HEs n Hn salt L4' hide input rep l Hh Hne El Hll Hnin) in Lv.
      rewrite Ei, (reveal_seeds_eq (with_shake E) P sp HP3 CF HEs n Hn salt L4' root rep hide Lr Hh) in Lv.
      rewrite (srec_gen (with_shake E) P HP3 HEs n Hn root salt rep hide Hh Hne) in Lv by (rewrite ?Lr, ?L4; auto).
      rewrite (seed_leaf_eq (with_shake E) P sp HP3 CF HEs n Hn salt L4' root rep l Lr Hll). exact Lv.
    + exists (map flag (t_haveNode T)). split; [rewrite <- T2; apply G; lia|]. split; [rewrite map_length; exact (sh_have _ _ _ _ Sh)|].
      intros l Hll. rewrite Ef, nth_flag. change (nth (nF D + l) (t_haveNode T) false) with (hv T (nF D + l)). specialize (Lf l Hll).
      destruct (existsb (Nat.eqb l) hide) eqn:Ex.
      * apply existsb_exists in Ex. destruct Ex as (x & Hx & Hxe). apply Nat.eqb_eq in Hxe. subst x. destruct (hv T (nF D + l)); [elim (proj1 Lf eq_refl Hx)|reflexivity].
      * rewrite (proj2 Lf); [reflexivity|]. intros Hx. assert (existsb (Nat.eqb l) hide = true); [|congruence]. apply existsb_exists. exists l. split; [exact Hx|apply Nat.eqb_refl].
  - assert (Mo : rebuild E P input salt rep t0 rv 0 = Ok None).
    { unfold rebuild. fold s. rewrite Nat.mul_0_l. rewrite (put_revealed_short n D s rv t0 input 0 Ht Hlt) by lia. reflexivity. }
    destruct (G _ Mo) as (st' & t & c & R & A & H & I5 & _). exists st', t. split; [exact R|]. split; [exact A|]. split; [exact (heap_chg _ _ _ _ _ _ H)|]. split; [intros _; exact I5|lia].
Qed.

(** A memory in which it is called. *)
Definition again_state (P : paramset) (n : nat) (input salt : bytes) : state := seeds_state P n input salt.
Lemma again_called P n input salt : 0 < seedSizeBytes P -> bytes_ok input -> bytes_ok salt -> length salt = saltSizeBytes P ->
  again_call P n (again_state P n input salt) (tree_place n (seedSizeBytes P)) input salt.
Proof.
  intros Hs B3 B4 L4. destruct (new_tree_in n (seedSizeBytes P) (again_state P n input salt) [input; salt; round_constant_bytes] Hs eq_refl ltac:(cbn; lia) eq_refl eq_refl eq_refl) as [Nt Out].
  split; [exact Nt|..].
  - exists (3, 0). split; [reflexivity|]. split; [apply pts_block; [cbn; lia|reflexivity]|]. split; [exact B3|apply Out; lia].
  - exists (4, 0). split; [reflexivity|]. split; [|exact L4]. split; [apply pts_block; [cbn; lia|reflexivity]|]. split; [exact B4|apply Out; lia].
  - exists (5, 0). split; [reflexivity|]. split; [|reflexivity]. split; [apply pts_block; [cbn; lia|reflexivity]|]. split; [|apply Out; lia]. apply Forall_forall. intros x Hx. revert x Hx. apply Forall_forall. repeat constructor.
Qed.
