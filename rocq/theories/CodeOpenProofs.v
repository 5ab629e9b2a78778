(** openMerkleTree on memory. *)

From Coq Require Import List NArith Arith Bool Lia ZifyBool ZifyNat ZifyN.
From Verif Require Import Base Params Env Spec MiniC CodeLowMC CodeSpec HashSpec CodeKeccakSpec CodeZkbSpec CodeHashUses Tree TreeSpec CodeTree CodeTreeSpec CodeMerkle CodeMerkleSpec
  BaseFacts ParamFacts HashProofs MiniCFacts CodeRules CodeLowMCProofs CodeHeap CodeP3Lin CodeSignRules TreeShape TreeSeed TreeReveal TreeOpen TreeTop TreeMerkle CodeTreeProofs
  CodeWitness CodeTreeThm CodeSerializeProofs CodeMerkleProofs CodeOpen.
Import ListNotations.

Section R.
Variables (U : nat -> nat -> bytes) (P : paramset) (y : state) (q : nat -> ptr) (v : nat -> bytes) (qb : ptr) (buf : bytes).
Notation s := (digestSizeBytes P).
Hypothesis Hs0 : 0 < s.
Let n0 := nx y.
Let m0 := mm y.
Let ol : layout := mkLayout 1 (fun _ => qb) (fun _ => length buf).
Hypothesis E6 : pv y 6 = [qb].
Hypothesis Hbuf : CodeZkbSpec.holds y qb buf.
Definition out_at (out : bytes) (z : state) : Prop := pv z = pv y /\ nx z = n0 /\ heap n0 m0 ol n0 (mm z) (fun _ => blit_list buf 0 out).
Definition node_in (r : nat) : Prop := nth_error (pv y 9) r = Some (q r) /\ reads y [(qb, length buf)] (q r) (v r) /\ length (v r) = s.

Lemma out_start : out_at [] y.
Proof.
  clear Hs0 E6 U q v.
  split; [reflexivity|]. split; [reflexivity|]. destruct Hbuf as [Hb Bb]. change (blit_list buf 0 []) with buf. split; [split| | | |]; cbn [ol CodeHeap.cnt reg sz].
  - auto.
  - intros k _. apply Hb.
  - intros i j Hi Hj Hne. lia.
  - intros k _. exact Hb.
  - reflexivity.
  - intros k _. exact Bb.
  - apply chg_refl.
Qed.

Lemma run_open nodes : forall k out z (Q : state -> Prop), out_at out z -> length out = k * s -> Forall node_in nodes -> k * s + length nodes * s <= length buf ->
  (forall z', out_at (out ++ flat_map v nodes) z' -> iv z' 5 = iv z 5 -> Q z') ->
  runs U (c_open P k nodes) z Q.
Proof.
  induction nodes as [|r nodes IH]; intros k out z Q X Lo F Hl HQ; cbn [c_open].
  - apply runs_skip. apply HQ; [cbn [flat_map]; rewrite app_nil_r; exact X|reflexivity].
  - inversion F as [|? ? (E9 & (Pr & Br & Or) & Lr) Fv]; subst. cbn [length Nat.mul] in Hl.
    assert (L : k * s + s <= length buf) by lia.
    pose proof X as (A1 & A2 & A3). rewrite Lr in Or.
    assert (Dj : disj qb (length buf) (q r) s) by (apply Or; left; reflexivity).
    assert (R : ro n0 m0 ol (q r) (v r)) by (split; [exact Pr|]; intros j _; cbn [ol reg sz]; rewrite Lr; exact Dj).
    pose proof (heap_ro _ _ _ _ _ _ _ _ A3 R) as P2. pose proof (heap_pts _ _ _ _ _ _ A3 0 ltac:(cbn; lia)) as P1. cbn [ol reg] in P1.
    assert (Lw : length (blit_list buf 0 out) = length buf) by (apply length_blit_list; lia).
    set (d := (fst qb, snd qb + k * s)).
    assert (Ed : peval (iv z) (pv z) (PAdd (P0 6) (IC (k * s))) = Some d).
    { cbn [P0 peval ieval]. rewrite A1, E6. cbn [nth_error]. rewrite (surjective_pairing qb) at 1. reflexivity. }
    assert (Ep : peval (iv z) (pv z) (PV 9 (IC r)) = Some (q r)) by (cbn [peval ieval]; rewrite A1; exact E9).
    apply runs_seq. eapply (runs_memcpy U _ _ _ d (q r)); [exact Ed|exact Ep| | | |]; cbn [ieval].
    + unfold d. pose proof (pts_bound _ _ _ _ P1 ltac:(intros Hc; rewrite Hc in Lw; cbn in Lw; lia)). unfold valid. cbn [fst snd]. rewrite Nat.mod_1_r. apply andb_true_iff. split; [apply Nat.leb_le; lia|reflexivity].
    + apply (pts_valid n0 _ _ (v r)); auto; lia.
    + unfold d, separate, disj in *. cbn [fst snd]. lia.
    + rewrite (rdmem_pts n0 _ _ (v r)) by (auto; lia). rewrite firstn_all2 by lia.
      destruct (wrmem_pts n0 (mm z) d (v r)) as [D1 D2].
      * apply P1.
      * unfold d. cbn [fst snd]. rewrite Lr. pose proof (pts_bound _ _ _ _ P1 ltac:(intros Hc; rewrite Hc in Lw; cbn in Lw; lia)). lia.
      * apply (IH (S k) (out ++ v r)); [|rewrite app_length, Lr, Lo; cbn [Nat.mul]; lia|exact Fv|cbn [Nat.mul]; lia|].
        -- split; [exact A1|]. split; [exact A2|]. cbn [set_mm mm].
           apply (heap_ext _ _ _ _ _ (cset (fun _ => blit_list buf 0 out) 0 (blit_list (blit_list buf 0 out) (k * s) (v r)))).
           ++ apply (heap_patch n0 m0 ol n0 (mm z)); auto; cbn [ol CodeHeap.cnt sz reg]; lia.
           ++ intros j Hj. cbn [ol CodeHeap.cnt] in Hj. replace j with 0 by lia. rewrite cset_eq. rewrite <- Lo. symmetry. apply blit_app. lia.
        -- intros z' Z I5. apply HQ; [cbn [flat_map]; rewrite app_assoc; exact Z|]. rewrite I5. reflexivity.
Qed.
End R.

Theorem open_code U p P n st q leaves salt nodes qb buf :
  locals_ok U -> get_param_set p = Some P -> 2 <= n -> Nat.log2_up n < 30 -> merkle_call P n st q leaves salt -> (forall x, In x nodes -> x < node_count n) ->
  pv st 6 = [qb] -> reads st (tree_parts n (digestSizeBytes P) q) qb buf -> length buf = length nodes * digestSizeBytes P ->
  exists st' t v, run U (c_merkle_opened P n nodes) st = Some (st', t) /\ nx st' = nx st /\
    chg (nx st) (mm st) (mm st') ((qb, length buf) :: tree_parts n (digestSizeBytes P) q) /\ merkle_values P n leaves salt v /\
    (forall x, x < node_count n -> CodeZkbSpec.holds st' (q x) (v x)) /\ CodeZkbSpec.holds st' qb (flat_map v nodes) /\ iv st' 5 = length (flat_map v nodes).
Proof.
  intros HU HP Hn HB HM Hx E6 Rb Lb. destruct (merkle_full U p P n st q leaves salt HU HP Hn HB HM) as (z & t & v & Ru & B & C & MV & Hv & _ & _ & A & Lv & c & H).
  destruct (digest_sizes p P HP) as [Hs _]. set (s := digestSizeBytes P) in *.
  assert (Dj : forall k, k < node_count n -> disj qb (length buf) (q k) s).
  { intros k Hk. destruct Rb as (_ & _ & O). specialize (O (q k) (tree_part n s k)). rewrite part_node in O by exact Hk.
    assert (I : In (q k, s) (tree_parts n s q)) by (unfold tree_parts; apply in_map_iff; exists k; rewrite part_node by exact Hk; split; [reflexivity|apply in_seq; lia]).
    specialize (O I). unfold disj in *. lia. }
  assert (Hb : CodeZkbSpec.holds z qb buf) by (split; [rewrite B; exact (heap_ro _ _ _ _ _ _ _ _ H (tree_ro n s st q _ _ Rb))|apply Rb]).
  assert (F : Forall (node_in P z q v qb buf) nodes).
  { apply Forall_forall. intros r Hr. pose proof (Hx r Hr) as Lx. split; [rewrite A; apply (nt_nodes _ _ _ _ (mk_tree _ _ _ _ _ _ HM)), Lx|]. split; [|apply Lv, Lx].
    destruct (Hv r Lx) as [N1 N2]. split; [exact N1|]. split; [exact N2|]. intros p0 l [[= <- <-]|[]]. rewrite Lv by exact Lx. apply Dj, Lx. }
  assert (Lo : length (flat_map v nodes) = length nodes * s).
  { clear - F. induction F as [|r l (_ & _ & Lr) _ IH]; [reflexivity|]. cbn [flat_map length Nat.mul]. rewrite app_length, IH. fold s in Lr. lia. }
  set (z1 := set_iv z (upd (iv z) 5 (length nodes * s))).
  assert (R : runs U (c_merkle_opened P n nodes) st (fun y => nx y = nx st /\ chg (nx st) (mm st) (mm y) ((qb, length buf) :: tree_parts n s q) /\
    (forall x, x < node_count n -> CodeZkbSpec.holds y (q x) (v x)) /\ CodeZkbSpec.holds y qb (flat_map v nodes) /\ iv y 5 = length (flat_map v nodes))).
  { unfold c_merkle_opened, c_openMerkleTree. apply runs_seq. unfold runs at 1. rewrite Ru. apply runs_seq, runs_iset. cbn [ieval]. fold s. fold z1.
    assert (E6z : pv z1 6 = [qb]) by (cbn [z1 set_iv pv]; rewrite A; exact E6).
    apply (run_open U P z1 q v qb buf (proj1 Hs) E6z nodes 0 [] z1 _ (out_start z1 qb buf Hb) eq_refl F); [fold s; lia|].
    intros z' (A1 & A2 & A3) I5. cbn [app] in A3. change (nx z1) with (nx z) in *. change (mm z1) with (mm z) in *.
    assert (Ew : blit_list buf 0 (flat_map v nodes) = flat_map v nodes) by (unfold blit_list; cbn [firstn app Nat.add]; rewrite skipn_all2 by lia; apply app_nil_r).
    rewrite Ew in A3. split; [congruence|]. split; [|split; [|split]].
    - apply (chg_trans _ _ (mm z) _ (tree_parts n s q) [(qb, length buf)]); [exact C| |intros x Hx'; right; exact Hx'|intros x [<-|[]]; left; reflexivity].
      pose proof (heap_chg _ _ _ _ _ _ A3) as K. rewrite B in K. exact K.
    - intros x Lx. destruct (Hv x Lx) as [N1 N2]. split; [|exact N2]. rewrite A2. apply (heap_ro _ _ _ _ _ _ _ _ A3). split; [exact N1|]. intros k _. cbn [reg sz]. rewrite Lv by exact Lx. apply Dj, Lx.
    - split; [rewrite A2; exact (heap_pts _ _ _ _ _ _ A3 0 ltac:(cbn; lia))|exact (heap_ok _ _ _ _ _ _ A3 0 ltac:(cbn; lia))].
    - rewrite I5. cbn [z1 set_iv iv]. rewrite upd_eq. lia. }
  unfold runs in R. destruct (run U (c_merkle_opened P n nodes) st) as [[y t']|]; [|destruct R]. exists y, t', v. destruct R as (R1 & R2 & R3). repeat (split; [first [reflexivity|assumption]|]). exact R3.
Qed.

(** A memory in which it is called. *)
Definition open_state (P : paramset) (n : nat) (leaves : list bytes) (salt buf : bytes) : state :=
  mkState (fun _ => 0) (fun _ => 0%N)
    (args [] [[(4, 0)]; []; []; map (fun i => (6 + i, 0)) (seq 0 n); [(3, 0)]; []; [(5, 0)]; []; []; map (tree_place n (digestSizeBytes P)) (seq 0 (node_count n)); [(1, 0)]; [(2, 0)]])
    (tree_memory n (digestSizeBytes P) ([salt; round_constant_bytes; buf] ++ leaves)) (6 + n) 0.
Lemma open_called P n leaves salt buf : 0 < digestSizeBytes P -> length leaves = n -> Forall bytes_ok leaves -> (forall x, In x leaves -> digestSizeBytes P <= length x) ->
  bytes_ok salt -> length salt = saltSizeBytes P -> bytes_ok buf ->
  merkle_call P n (open_state P n leaves salt buf) (tree_place n (digestSizeBytes P)) leaves salt /\
  pv (open_state P n leaves salt buf) 6 = [(5, 0)] /\ reads (open_state P n leaves salt buf) (tree_parts n (digestSizeBytes P) (tree_place n (digestSizeBytes P))) (5, 0) buf.
Proof.
  intros Hs HL BL LL B4 L4 B6. destruct (new_tree_in n (digestSizeBytes P) (open_state P n leaves salt buf) ([salt; round_constant_bytes; buf] ++ leaves) Hs eq_refl ltac:(cbn; lia) eq_refl eq_refl eq_refl) as [Nt Out].
  split; [split; [exact Nt|exact HL|..]|].
  - intros i d Hi. assert (i < n) by (rewrite <- HL; apply nth_error_Some; congruence). split; [apply LL, nth_error_In with i, Hi|]. exists (6 + i, 0).
    split; [change (pv (open_state P n leaves salt buf) 3) with (map (fun i => (6 + i, 0)) (seq 0 n)); rewrite nth_error_map, nth_error_nth' with (d := 0) by (rewrite seq_length; lia); rewrite seq_nth by lia; reflexivity|].
    split; [apply pts_block; [cbn; lia|]|].
    + change (mm (open_state P n leaves salt buf) (6 + i)) with (nth i leaves []). apply nth_error_nth, Hi.
    + split; [|apply Out; lia]. rewrite Forall_forall in BL. apply BL, nth_error_In with i, Hi.
  - exists (3, 0). split; [reflexivity|]. split; [|exact L4]. split; [apply pts_block; [cbn; lia|reflexivity]|]. split; [exact B4|apply Out; lia].
  - exists (4, 0). split; [reflexivity|]. split; [|reflexivity]. split; [apply pts_block; [cbn; lia|reflexivity]|]. split; [|apply Out; lia]. apply Forall_forall. intros x Hx. revert x Hx. apply Forall_forall. repeat constructor.
  - split; [reflexivity|]. split; [apply pts_block; [cbn; lia|reflexivity]|]. split; [exact B6|apply Out; lia].
Qed.
