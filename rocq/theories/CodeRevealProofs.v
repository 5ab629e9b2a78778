(** revealSeeds on memory. *)

From Coq Require Import List NArith Arith Bool Lia ZifyBool ZifyNat ZifyN.
From Verif Require Import Base Params Env Spec MiniC CodeLowMC CodeSpec HashSpec CodeKeccakSpec CodeZkbSpec CodeHashUses Tree TreeSpec CodeTree CodeTreeSpec
  BaseFacts ParamFacts HashProofs MiniCFacts CodeRules CodeLowMCProofs CodeHeap CodeP3Lin CodeSignRules TreeShape TreeSeed TreeReveal TreeOpen TreeTop CodeTreeProofs
  TreeMissing P3Tape P3Round P3Seeds ZkbppSpec ZkbppProofs KkwSpec KkwTree KkwNodes CodeWitness CodeTreeThm CodeSerializeProofs CodeReconstructProofs CodeReveal.
Import ListNotations.

Section R.
Variables (U : nat -> nat -> bytes) (P : paramset) (y : state) (q : nat -> ptr) (v : nat -> bytes) (qb : ptr) (buf : bytes).
Notation s := (seedSizeBytes P).
Hypothesis Hs0 : 0 < s.
Let n0 := nx y.
Let m0 := mm y.
Let ol : layout := mkLayout 1 (fun _ => qb) (fun _ => length buf).
Hypothesis E6 : pv y 6 = [qb].
Hypothesis Hbuf : CodeZkbSpec.holds y qb buf.
Definition out_at (out : bytes) (z : state) : Prop := pv z = pv y /\ nx z = n0 /\ heap n0 m0 ol n0 (mm z) (fun _ => blit_list buf 0 out).
Definition node_in (r : nat) : Prop := nth_error (pv y 9) r = Some (q r) /\ reads y [(qb, length buf)] (q r) (v r) /\ length (v r) = s.

Lemma out_start : out_at [] y.
Proof.
  clear Hs0 E6 U q v.
  split; [reflexivity|]. split; [reflexivity|]. destruct Hbuf as [Hb Bb]. change (blit_list buf 0 []) with buf. split; [split| | | |]; cbn [ol CodeHeap.cnt reg sz].
  - auto.
  - intros k _. apply Hb.
  - intros i j Hi Hj Hne. lia.
  - intros k _. exact Hb.
  - reflexivity.
  - intros k _. exact Bb.
  - apply chg_refl.
Qed.

Lemma run_reveal nodes : forall k out z (Q : state -> Prop), out_at out z -> length out = k * s -> Forall node_in nodes -> k * s + length nodes * s <= length buf ->
  (forall z', out_at (out ++ flat_map v nodes) z' -> iv z' 5 = (k + length nodes) * s -> Q z') ->
  runs U (c_reveal P (length buf) k nodes) z Q.
Proof.
  induction nodes as [|r nodes IH]; intros k out z Q X Lo F Hl HQ; cbn [c_reveal].
  - apply runs_iset. apply HQ; [cbn [flat_map]; rewrite app_nil_r; exact X|cbn [set_iv iv]; rewrite upd_eq; cbn [ieval length]; f_equal; lia].
  - inversion F as [|? ? (E9 & (Pr & Br & Or) & Lr) Fv]; subst. cbn [length Nat.mul] in Hl.
    eapply runs_if; [cbn [ceval ieval]; reflexivity|]. destruct (Nat.ltb_spec (length buf) (k * s + s)) as [L|L]; [lia|].
    pose proof X as (A1 & A2 & A3). rewrite Lr in Or.
    assert (Dj : disj qb (length buf) (q r) s) by (apply Or; left; reflexivity).
    assert (R : ro n0 m0 ol (q r) (v r)) by (split; [exact Pr|]; intros j _; cbn [ol reg sz]; rewrite Lr; exact Dj).
    pose proof (heap_ro _ _ _ _ _ _ _ _ A3 R) as P2. pose proof (heap_pts _ _ _ _ _ _ A3 0 ltac:(cbn; lia)) as P1. cbn [ol reg] in P1.
    assert (Lw : length (blit_list buf 0 out) = length buf) by (apply length_blit_list; lia).
    set (d := (fst qb, snd qb + k * s)).
    assert (Ed : peval (iv z) (pv z) (PAdd (P0 6) (IC (k * s))) = Some d).
    { cbn [P0 peval ieval]. rewrite A1, E6. cbn [nth_error]. rewrite (surjective_pairing qb) at 1. reflexivity. }
    assert (Ep : peval (iv z) (pv z) (PV 9 (IC r)) = Some (q r)) by (cbn [peval ieval]; rewrite A1; exact E9).
    apply runs_seq. eapply (runs_memcpy U _ _ _ d (q r)); [exact Ed|exact Ep| | | |]; cbn [ieval].
    + unfold d. pose proof (pts_bound _ _ _ _ P1 ltac:(intros Hc; rewrite Hc in Lw; cbn in Lw; lia)). unfold valid. cbn [fst snd]. rewrite Nat.mod_1_r. apply andb_true_iff. split; [apply Nat.leb_le; lia|reflexivity].
    + apply (pts_valid n0 _ _ (v r)); auto; lia.
    + unfold d, separate, disj in *. cbn [fst snd]. lia.
    + rewrite (rdmem_pts n0 _ _ (v r)) by (auto; lia). rewrite firstn_all2 by lia.
      destruct (wrmem_pts n0 (mm z) d (v r)) as [D1 D2].
      * apply P1.
      * unfold d. cbn [fst snd]. rewrite Lr. pose proof (pts_bound _ _ _ _ P1 ltac:(intros Hc; rewrite Hc in Lw; cbn in Lw; lia)). lia.
      * apply (IH (S k) (out ++ v r)); [|rewrite app_length, Lr, Lo; cbn [Nat.mul]; lia|exact Fv|cbn [Nat.mul]; lia|].
        -- split; [exact A1|]. split; [exact A2|]. cbn [set_mm mm].
           apply (heap_ext _ _ _ _ _ (cset (fun _ => blit_list buf 0 out) 0 (blit_list (blit_list buf 0 out) (k * s) (v r)))).
           ++ apply (heap_patch n0 m0 ol n0 (mm z)); auto; cbn [ol CodeHeap.cnt sz reg]; lia.
           ++ intros j Hj. cbn [ol CodeHeap.cnt] in Hj. replace j with 0 by lia. rewrite cset_eq. rewrite <- Lo. symmetry. apply blit_app. lia.
        -- intros z' Z I5. apply HQ; [cbn [flat_map]; rewrite app_assoc; exact Z|]. rewrite I5. cbn [length]. f_equal. lia.
Qed.
End R.

Theorem reveal_code U E p P sp n rep st q hide root salt qb buf :
  locals_ok U -> env_bytes_ok E -> get_param_set p = Some P -> is_picnic3 p = true -> table2 p = Some sp -> 2 <= n <= 1024 ->
  Forall (fun l => l < n) hide -> seeds_call P n st q root salt -> length root = seedSizeBytes P ->
  pv st 6 = [qb] -> reads st (tree_parts n (seedSizeBytes P) q) qb buf -> length (reveal n hide) * seedSizeBytes P <= length buf ->
  exists st' t, run U (c_seeds_revealed P n rep (length buf) (reveal n hide)) st = Some (st', t) /\ nx st' = nx st /\
    chg (nx st) (mm st) (mm st') ((qb, length buf) :: tree_parts n (seedSizeBytes P) q) /\
    (let out := reveal_seeds (with_shake E) sp n root salt rep hide in
     iv st' 5 = length out /\ CodeZkbSpec.holds st' qb (out ++ skipn (length out) buf)) /\
    (forall l, l < n -> CodeZkbSpec.holds st' (q (node_count n - n + l)) (seed_leaf (with_shake E) sp n root salt rep l)).
Proof.
  intros HU HE HP H3 Htab Hn Hh HM Lr E6 Rb Hl. destruct (seed_sizes p P HP) as [Hs Hsalt]. pose proof (shake_env E HE) as HEs.
  pose proof (get_param_set_wfP3 _ _ HP H3) as HP3. destruct (table2_conforms p P HP) as (sp' & Htab' & CF). assert (sp' = sp) as -> by congruence.
  pose proof (log_small n (proj2 Hn)) as HB. set (D := Nat.log2_up n) in *. destruct (sd_salt _ _ _ _ _ _ HM) as (_ & _ & _ & L4).
  assert (HnD : n <= 2 ^ D) by (apply Nat.log2_up_spec; lia). assert (L4' : length salt = 32) by (rewrite L4; apply (cf_salt P sp CF)).
  pose proof (generateSeeds_ok (with_shake E) P HEs Hs n D (proj1 Hn) eq_refl HB salt rep ltac:(lia) root ltac:(lia)) as HT. apply ok_ex in HT. destruct HT as (T & M & HT).
  assert (ET : sgen (with_shake E) P n root salt rep = T) by (unfold sgen; rewrite M; reflexivity).
  pose proof HT as (Sh & _). set (s := seedSizeBytes P) in *. set (nodes := reveal n hide) in *.
  assert (Hx : forall r, In r nodes -> ext n D r = true).
  { intros r Hr. unfold nodes in Hr. rewrite <- (reveal_eq n Hn hide Hh) in Hr. destruct (rvs_ok n Hn hide s T Hh Sh) as [_ (_ & Hin & _)]. apply Hin in Hr. apply Rv_ext in Hr; auto. lia. }
  set (out := reveal_seeds (with_shake E) sp n root salt rep hide).
  assert (R : runs U (c_seeds_revealed P n rep (length buf) nodes) st (fun z => nx z = nx st /\ chg (nx st) (mm st) (mm z) ((qb, length buf) :: tree_parts n s q) /\
    (iv z 5 = length out /\ CodeZkbSpec.holds z qb (out ++ skipn (length out) buf)) /\
    (forall l, l < n -> CodeZkbSpec.holds z (q (node_count n - n + l)) (seed_leaf (with_shake E) sp n root salt rep l)))).
  { unfold c_seeds_revealed. apply runs_seq. apply (run_seeds U HU E P n Hs Hsalt (proj1 Hn) HB st q root salt rep HM T _ M).
    intros z c A B H (T1 & T2 & T3) _. change (nN n (Nat.log2_up n)) with (node_count n) in *.
    assert (Cn : forall r, ext n D r = true -> r < node_count n /\ c r = seed_at (with_shake E) sp n root salt rep r).
    { intros r Hr. pose proof (ext_lt n D r Hr) as Lx. change (nN n D) with (node_count n) in Lx. split; [exact Lx|].
      rewrite (T1 r Lx), (seed_at_eq (with_shake E) P sp HP3 CF HEs n Hn salt L4' root rep r Lr Hr), ET. reflexivity. }
    assert (Dj : forall k, k < node_count n -> disj qb (length buf) (q k) s).
    { intros k Hk. destruct Rb as (_ & _ & O). specialize (O (q k) (tree_part n s k)). rewrite part_node in O by exact Hk.
      assert (I : In (q k, s) (tree_parts n s q)) by (unfold tree_parts; apply in_map_iff; exists k; rewrite part_node by exact Hk; split; [reflexivity|apply in_seq; lia]).
      specialize (O I). unfold disj in *. lia. }
    assert (Nl : forall k, k < node_count n -> length (c k) = s) by (intros k Hk; rewrite (heap_len _ _ _ _ _ _ H k) by (cbn; lia); apply (part_node n s), Hk).
    assert (Np : forall k, k < node_count n -> CodeZkbSpec.holds z (q k) (c k)).
    { intros k Hk. split; [rewrite B; exact (heap_pts _ _ _ _ _ _ H k ltac:(cbn; lia))|exact (heap_ok _ _ _ _ _ _ H k ltac:(cbn; lia))]. }
    assert (Hb : CodeZkbSpec.holds z qb buf) by (split; [rewrite B; exact (heap_ro _ _ _ _ _ _ _ _ H (tree_ro n s st q _ _ Rb))|apply Rb]).
    assert (F : Forall (node_in P z q c qb buf) nodes).
    { apply Forall_forall. intros r Hr. destruct (Cn r (Hx r Hr)) as [Lx _]. split; [rewrite A; apply (nt_nodes _ _ _ _ (sd_tree _ _ _ _ _ _ HM)), Lx|]. split; [|apply Nl, Lx].
      destruct (Np r Lx) as [N1 N2]. split; [exact N1|]. split; [exact N2|]. intros p0 l [[= <- <-]|[]]. rewrite Nl by exact Lx. apply Dj, Lx. }
    assert (Eo : flat_map c nodes = out).
    { unfold out, reveal_seeds. fold nodes. rewrite !flat_map_concat_map. f_equal. apply map_ext_in. intros r Hr. apply Cn, Hx, Hr. }
    assert (Lo : length out = length nodes * s).
    { rewrite <- Eo. clear - F. induction F as [|r l (_ & _ & Lr) _ IH]; [reflexivity|]. cbn [flat_map length Nat.mul]. rewrite app_length, IH. fold s in Lr. lia. }
    unfold c_revealSeeds. assert (E6z : pv z 6 = [qb]) by (rewrite A; exact E6).
    apply (run_reveal U P z q c qb buf (proj1 Hs) E6z nodes 0 [] z _ (out_start z qb buf Hb) eq_refl F); [fold s; lia|].
    intros z' (A1 & A2 & A3) I5. cbn [app] in A3. rewrite Eo in A3. fold s in I5. cbn [Nat.add] in I5.
    split; [congruence|]. split; [|split; [split|]].
    - apply (chg_trans _ _ (mm z) _ (tree_parts n s q) [(qb, length buf)]); [exact (heap_chg _ _ _ _ _ _ H)| |intros x Hx'; right; exact Hx'|intros x [<-|[]]; left; reflexivity].
      pose proof (heap_chg _ _ _ _ _ _ A3) as K. rewrite B in K. exact K.
    - lia.
    - split; [rewrite A2; exact (heap_pts _ _ _ _ _ _ A3 0 ltac:(cbn; lia))|exact (heap_ok _ _ _ _ _ _ A3 0 ltac:(cbn; lia))].
    - intros l Hll. assert (Ef : node_count n - n + l = nF D + l) by (unfold node_count, nF; fold D; pose proof (pow_pos D); lia).
      assert (Xl : ext n D (nF D + l) = true) by (apply ext_leaf; auto; lia). destruct (Cn _ Xl) as [Lx Ex]. rewrite Ef.
      assert (Es : seed_leaf (with_shake E) sp n root salt rep l = c (nF D + l)) by (rewrite Ex; unfold seed_leaf; f_equal).
      rewrite Es. destruct (Np _ Lx) as [N1 N2]. split; [|exact N2]. rewrite A2. apply (heap_ro _ _ _ _ _ _ _ _ A3). split; [exact N1|]. intros k _. cbn [reg sz]. rewrite Nl by exact Lx. apply Dj, Lx. }
  unfold runs in R. destruct (run U _ st) as [[z t]|]; [|destruct R]. exists z, t. split; [reflexivity|exact R].
Qed.

(** A memory in which it is called. *)
Definition reveal_state (P : paramset) (n : nat) (root salt buf : bytes) : state :=
  mkState (fun _ => 0) (fun _ => 0%N)
    (args [] [[(5, 0)]; []; []; [(3, 0)]; [(4, 0)]; []; [(6, 0)]; []; []; map (tree_place n (seedSizeBytes P)) (seq 0 (node_count n)); [(1, 0)]; [(2, 0)]])
    (tree_memory n (seedSizeBytes P) [root; salt; round_constant_bytes; buf]) 7 0.
Lemma reveal_called P n root salt buf : 0 < seedSizeBytes P -> bytes_ok root -> bytes_ok salt -> bytes_ok buf -> seedSizeBytes P <= length root -> length salt = saltSizeBytes P ->
  seeds_call P n (reveal_state P n root salt buf) (tree_place n (seedSizeBytes P)) root salt /\
  pv (reveal_state P n root salt buf) 6 = [(6, 0)] /\ reads (reveal_state P n root salt buf) (tree_parts n (seedSizeBytes P) (tree_place n (seedSizeBytes P))) (6, 0) buf.
Proof.
  intros Hs B3 B4 B6 L3 L4. destruct (new_tree_in n (seedSizeBytes P) (reveal_state P n root salt buf) [root; salt; round_constant_bytes; buf] Hs eq_refl ltac:(cbn; lia) eq_refl eq_refl eq_refl) as [Nt Out].
  split; [split; [exact Nt|..]|].
  - exists (3, 0). split; [reflexivity|]. split; [|exact L3]. split; [apply pts_block; [cbn; lia|reflexivity]|]. split; [exact B3|apply Out; lia].
  - exists (4, 0). split; [reflexivity|]. split; [|exact L4]. split; [apply pts_block; [cbn; lia|reflexivity]|]. split; [exact B4|apply Out; lia].
  - exists (5, 0). split; [reflexivity|]. split; [|reflexivity]. split; [apply pts_block; [cbn; lia|reflexivity]|]. split; [|apply Out; lia]. apply Forall_forall. intros x Hx. revert x Hx. apply Forall_forall. repeat constructor.
  - split; [reflexivity|]. split; [apply pts_block; [cbn; lia|reflexivity]|]. split; [exact B6|apply Out; lia].
Qed.
