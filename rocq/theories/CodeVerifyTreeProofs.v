(** Checking a Merkle tree on memory with pointers. *)

From Coq Require Import List NArith Arith Bool Lia ZifyBool ZifyNat ZifyN.
From Verif Require Import Base Params Env Spec MiniC CodeLowMC CodeSpec HashSpec CodeKeccakSpec CodeZkbSpec CodeHashUses Tree CodeTree CodeTreeSpec CodeMerkle CodeMerkleSpec CodeVerifyTree CodeVerifyTreeSpec
  BaseFacts ParamFacts UtilFacts HashProofs MiniCFacts CodeRules CodeLowMCProofs CodeHeap CodeP3Lin CodeP3Sim CodeHashUsesTop CodeSignRules TreeShape TreeSeed TreeMissing TreeMerkle TreeVerify TreeTop CodeTreeProofs CodeTreeThm CodeMerkleProofs CodeWitness Witness.
Import ListNotations.
Local Open Scope c_scope.

Section X.
Variables (n0 : nat) (m0 : memory) (U : nat -> nat -> bytes) (L : layout) (n1 : nat) (pv0 : nat -> list ptr) (P : paramset) (n D : nat).
Notation nn := (nN n D).
Notation s := (digestSizeBytes P).
Hypothesis Hs0 : 0 < s <= 64.
Hypothesis Hc : cnt L = nn + 2.
Hypothesis Hs : forall k, k < nn -> sz L k = s.
Hypothesis Hsh : sz L nn = nn.
Hypothesis Hse : sz L (nn + 1) = nn.
Hypothesis P9 : forall k, k < nn -> nth_error (pv0 9) k = Some (reg L k).
Hypothesis P10 : pv0 10 = [reg L nn].
Notation at_ := (at_st n0 m0 L n1 pv0).
Variable leaves : list (option bytes).
Hypothesis HL : length leaves = n.
Hypothesis P3 : forall i d, nth_error leaves i = Some (Some d) -> s <= length d /\ bytes_ok d /\ exists q, nth_error (pv0 3) i = Some q /\ ro n0 m0 L q d.
Hypothesis Hnn : n <= nn.

Lemma run_check_leaves rest (Q : state -> Prop) k : forall i c z t o, at_ c z -> trel n D c t -> shape n D s t -> i + k = n -> copy_leaves k i leaves t = Ok o ->
  (o = None -> forall z' c', at_ c' z' -> iv z' 5 = 1 -> Q z') ->
  (forall t', o = Some t' -> forall z' c', at_ c' z' -> trel n D c' t' -> shape n D s t' -> runs U rest z' Q) ->
  runs U (c_check_leaves P nn n (supplied leaves) i k rest) z Q.
Proof.
  induction k as [|k IH]; intros i c z t o X T H Hi M HN HS; cbn [copy_leaves] in M; cbn [c_check_leaves].
  - injection M as <-. apply (HS t eq_refl z c X T H).
  - unfold supplied at 1. unfold rd in M at 1. destruct (nth_error leaves i) as [[d|]|] eqn:Ei; cbn [bind] in M; [| |discriminate].
    + rewrite (nth_error_nth _ _ _ Ei). destruct (P3 i d Ei) as (Ll & Bd & q & Eq & Rq).
      assert (Ef : firstLeaf t = nn - n) by (unfold firstLeaf; rewrite (sh_N _ _ _ _ H), (sh_n _ _ _ _ H); reflexivity). rewrite Ef in M.
      rewrite (rd_have n D s) in M by (auto; lia). cbn [bind] in M.
      apply runs_seq. apply (g_have n0 m0 U L n1 pv0 nn ltac:(lia) Hsh Hse P10 c z (nn - n + i) _ X ltac:(lia)). intros z1 X1 D1. apply runs_ifd. cbn [deval]. rewrite D1.
      replace (nth (nn - n + i) (c nn) 0%N) with (flag (hv t (nn - n + i))) by (destruct T as (_ & T2 & _); rewrite T2; symmetry; apply nth_flag).
      destruct (hv t (nn - n + i)); cbn [flag N.eqb].
      * injection M as <-. apply runs_iset. apply (HN eq_refl _ c); [|apply upd_eq]. destruct X1 as (A & B & Hh). split; [exact A|]. split; [exact B|exact Hh].
      * rewrite (sh_sz _ _ _ _ H), slice0_ok in M by exact Ll. cbn [bind] in M. destruct (put_node t (nn - n + i) (firstn s d)) as [t1| | |] eqn:M1; cbn [bind] in M; try discriminate.
        apply runs_seq. eapply (run_put_leaf n0 m0 U L n1 pv0 P n D) with (t := t) (t' := t1) (i := i) (d := d); try eassumption; [lia|].
        intros z2 c2 X2 T2 H2. apply (IH (S i) c2 z2 t1 o X2 T2 H2 ltac:(lia) M HN HS).
    + rewrite (nth_error_nth _ _ _ Ei). apply (IH (S i) c z t o X T H ltac:(lia) M HN HS).
Qed.
End X.

Section T.
Variables (U : nat -> nat -> bytes) (HU : locals_ok U) (E : env) (P : paramset) (n : nat).
Notation Es := (with_shake E).
Notation D := (Nat.log2_up n).
Notation nn := (node_count n).
Notation s := (digestSizeBytes P).
Hypothesis Hs0 : 0 < s <= 64.
Hypothesis Hsalt : saltSizeBytes P <= 64.
Hypothesis Hn : 2 <= n.
Hypothesis HB : D < 30.
Variables (st : state) (q : nat -> ptr) (v : nat -> bytes) (known : nat -> bool) (leaves : list (option bytes)) (salt : bytes).
Hypothesis HM : check_call P n st q v known leaves salt.
Notation vl := (tree_layout n s q).

(** The tree on lists. *)
Definition tree_of (b : bytes) : tree :=
  mkTree (D + 1) (map v (seq 0 nn)) s (map known (seq 0 nn)) (map (fun x => (x =? 1)%N) b) nn n.
Lemma nd_of b x : x < nn -> nd (tree_of b) x = v x.
Proof. intros Hx. unfold nd, tree_of. cbn [t_nodes]. apply nth_error_nth. rewrite nth_error_map, nth_error_nth' with (d := 0) by (rewrite seq_length; exact Hx). rewrite seq_nth by exact Hx. reflexivity. Qed.
Lemma hv_of b x : hv (tree_of b) x = (x <? nn) && known x.
Proof.
  unfold hv, tree_of. cbn [t_haveNode]. destruct (Nat.ltb_spec x nn) as [Hx|Hx]; [|apply nth_overflow; rewrite map_length, seq_length; exact Hx].
  apply nth_error_nth. rewrite nth_error_map, nth_error_nth' with (d := 0) by (rewrite seq_length; exact Hx). rewrite seq_nth by exact Hx. reflexivity.
Qed.
Lemma bit_flag b : marks_nodes n b -> map flag (map (fun x => (x =? 1)%N) b) = b /\ forall x, x < nn -> nth x (map (fun x => (x =? 1)%N) b) false = ext n D x.
Proof.
  intros [Lb Hb].
  assert (G : forall x, x < nn -> nth x b 0%N = flag (ext n D x)).
  { intros x Hx. destruct (Hb x Hx) as [A B]. pose proof (above_ext n x Hn) as [C F]. destruct (ext n D x) eqn:Ex; cbn [flag]; [apply A, F; reflexivity|]. apply B. intros K. apply C in K. congruence. }
  split.
  - rewrite map_map. transitivity (map (fun x : N => x) b); [|apply map_id]. apply map_ext_in. intros x Hx. apply In_nth with (d := 0%N) in Hx. destruct Hx as (k & Hk & <-). unfold bytes, byte in *.
    rewrite G by lia. destruct (ext n D k); reflexivity.
  - intros x Hx. assert (K : nth_error b x = Some (flag (ext n D x))) by (rewrite nth_error_nth' with (d := 0%N) by (unfold bytes, byte in *; lia); rewrite G by exact Hx; reflexivity).
    apply nth_error_nth. rewrite nth_error_map, K. destruct (ext n D x); reflexivity.
Qed.

Lemma tree_of_shape b : marks_nodes n b -> shape n D s (tree_of b).
Proof.
  intros Hb. pose proof (proj2 (bit_flag b Hb)) as F. destruct Hb as [Lb Hb]. split; try reflexivity; unfold tree_of; cbn [t_nodes t_haveNode t_exists]; change (nN n D) with nn.
  - rewrite map_length, seq_length. reflexivity.
  - rewrite map_length, seq_length. reflexivity.
  - rewrite map_length. exact Lb.
  - intros x Hx. rewrite F by exact Hx. apply (ext_spec n D); [exact Hn|exact (D_bound n D Hn eq_refl HB)|exact Hx].
  - intros x Hx. fold (tree_of b). change (nth x (map v (seq 0 nn)) []) with (nd (tree_of b) x). rewrite nd_of by exact Hx. apply (ck_values _ _ _ _ _ _ _ _ HM x Hx).
Qed.

Definition start (b : bytes) (k : nat) : bytes := if k <? nn then v k else if k =? nn then flags n known else b.
Lemma start_heap b : holds st (q (nn + 1)) b -> marks_nodes n b -> heap (nx st) (mm st) vl (nx st) (mm st) (start b) /\ trel n D (start b) (tree_of b).
Proof.
  intros Hb Mb. assert (C : forall k, k < nn + 2 -> k < nn \/ k = nn \/ k = nn + 1) by (intros; lia).
  assert (S1 : forall k, k < nn -> start b k = v k) by (intros k Hk; unfold start; rewrite (proj2 (Nat.ltb_lt k nn)) by exact Hk; reflexivity).
  assert (S2 : start b nn = flags n known) by (unfold start; rewrite Nat.ltb_irrefl, Nat.eqb_refl; reflexivity).
  assert (S3 : start b (nn + 1) = b) by (unfold start; rewrite (proj2 (Nat.ltb_ge (nn + 1) nn)), (proj2 (Nat.eqb_neq (nn + 1) nn)) by lia; reflexivity).
  assert (G : forall k, k < nn + 2 -> holds st (q k) (start b k)).
  { intros k Hk. destruct (C k Hk) as [X|[->| ->]]; [rewrite S1 by exact X; apply (ck_values _ _ _ _ _ _ _ _ HM k X)|rewrite S2; apply (ck_known _ _ _ _ _ _ _ _ HM)|rewrite S3; exact Hb]. }
  split.
  - split; [split| | | |]; cbn [tree_layout cnt reg sz].
    + auto.
    + intros k Hk. destruct (G k Hk) as [[A _] _]. exact A.
    + intros k j Hi Hj Hne. apply (ck_apart _ _ _ _ _ _ _ _ HM k j (q k) (tree_part n s k) (q j) (tree_part n s j)); [| |exact Hne];
        unfold tree_parts; rewrite nth_error_map, nth_error_nth' with (d := 0) by (rewrite seq_length; lia); rewrite seq_nth by lia; reflexivity.
    + intros k Hk. apply (G k Hk).
    + intros k Hk. destruct (C k Hk) as [X|[->| ->]]; [rewrite S1, part_node by exact X; apply (ck_values _ _ _ _ _ _ _ _ HM k X)|rewrite S2, part_rest by lia; unfold flags; rewrite map_length, seq_length; reflexivity|rewrite S3, part_rest by lia; apply Mb].
    + intros k Hk. apply (G k Hk).
    + apply chg_refl.
  - split; [|split]; change (nN n D) with nn.
    + intros k Hk. change (nN n D) with nn in Hk. rewrite S1, nd_of by exact Hk. reflexivity.
    + rewrite S2. unfold tree_of, flags. cbn [t_haveNode]. rewrite map_map. reflexivity.
    + rewrite S3. unfold tree_of. cbn [t_exists]. symmetry. apply (bit_flag b Mb).
Qed.

Lemma run_check b o (Q : state -> Prop) : holds st (q (nn + 1)) b -> marks_nodes n b -> verifyMerkleTree Es P (tree_of b) leaves salt = Ok o ->
  (forall z c, nx z = nx st -> heap (nx st) (mm st) vl (nx st) (mm z) c -> iv z 5 = (match o with Some _ => 0 | None => 1 end) ->
    (forall t1 T, copy_leaves n 0 leaves (tree_of b) = Ok (Some t1) -> for_down nn (computeParentHash Es P salt) t1 = Ok T -> trel n D c T /\ iv z 5 = (if hv T 0 then 0 else 1)) -> Q z) ->
  runs U (c_verifyMerkleTree P n (supplied leaves)) st Q.
Proof.
  intros Hb Mb M HQ. pose proof (tree_of_shape b Mb) as H0. destruct (start_heap b Hb Mb) as [Hh T0].
  destruct (ck_salt _ _ _ _ _ _ _ _ HM) as (qs & E4 & R4 & L4). destruct (ck_rc _ _ _ _ _ _ _ _ HM) as (qr & E0 & R0 & A0).
  assert (Hnn : n <= nN n D) by (unfold nN; lia).
  assert (G1 : cnt vl = nN n D + 2) by reflexivity.
  assert (G2 : forall k, k < nN n D -> sz vl k = s) by (intros k Hk; apply part_node, Hk).
  assert (G3 : sz vl (nN n D) = nN n D) by (apply (part_rest n s nn); lia).
  assert (G4 : sz vl (nN n D + 1) = nN n D) by (apply (part_rest n s (nn + 1)); lia).
  assert (G6 : forall k, k < nN n D -> nth_error (pv st 9) k = Some (reg vl k)) by (intros k Hk; apply (ck_nodes _ _ _ _ _ _ _ _ HM), Hk).
  assert (G7 : pv st 10 = [reg vl (nN n D)]) by exact (ck_have _ _ _ _ _ _ _ _ HM).
  assert (G8 : pv st 11 = [reg vl (nN n D + 1)]) by exact (ck_exists _ _ _ _ _ _ _ _ HM).
  assert (G9 : forall i d, nth_error leaves i = Some (Some d) -> s <= length d /\ bytes_ok d /\ exists p, nth_error (pv st 3) i = Some p /\ ro (nx st) (mm st) vl p d).
  { intros i d Ei. destruct (ck_leaves _ _ _ _ _ _ _ _ HM i d Ei) as (A & p & B & R). split; [exact A|]. split; [apply R|]. exists p. split; [exact B|exact (tree_ro n s st q _ _ R)]. }
  pose proof (tree_ro n s st q _ _ R0) as R0'. pose proof (tree_ro n s st q _ _ R4) as R4'.
  assert (B4 : bytes_ok salt) by apply R4. assert (Sal : short salt) by (unfold short; lia). assert (L4' : saltSizeBytes P <= length salt) by lia.
  pose proof (ck_count _ _ _ _ _ _ _ _ HM) as HL.
  unfold verifyMerkleTree in M. rewrite (sh_n _ _ _ _ H0) in M. destruct (copy_leaves n 0 leaves (tree_of b)) as [o1| | |] eqn:M1; cbn [bind] in M; try discriminate.
  assert (X0 : at_st (nx st) (mm st) vl (nx st) (pv st) (start b) st) by (split; [reflexivity|split; [reflexivity|exact Hh]]).
  unfold c_verifyMerkleTree. cbv zeta. rewrite (num_nodes_eq n D Hn eq_refl HB).
  eapply (run_check_leaves (nx st) (mm st) U vl (nx st) (pv st) P n D) with (t := tree_of b) (o := o1); try eassumption; [lia|..].
  - intros -> z c (A & B & Hz) I5. injection M as <-. apply (HQ z c B Hz I5). intros t1 T M2. discriminate M2.
  - intros t1 -> z c X1 T1 H1. rewrite (sh_N _ _ _ _ H1) in M. destruct (for_down (nN n D) (computeParentHash Es P salt) t1) as [T| | |] eqn:M2; cbn [bind] in M; try discriminate.
    apply runs_seq. eapply (run_parents (nx st) (mm st) U HU vl (nx st) (pv st) E P n D) with (t := t1) (t' := T); try eassumption.
    intros z2 c2 X2 T2 H2. assert (N0 : 0 < nN n D) by (unfold nN; lia). rewrite (rd_have n D s) in M by auto. cbn [bind] in M.
    apply runs_seq. apply (g_have (nx st) (mm st) U vl (nx st) (pv st) (nN n D) ltac:(lia) G3 G4 G7 c2 z2 0 _ X2 N0). intros z3 X3 D3. apply runs_ifd. cbn [deval]. rewrite D3.
    replace (nth 0 (c2 (nN n D)) 0%N) with (flag (hv T 0)) by (destruct T2 as (_ & T2' & _); rewrite T2'; symmetry; apply nth_flag).
    destruct X3 as (A & B & Hz).
    destruct (hv T 0) eqn:H00; injection M as <-; cbn [flag N.eqb]; apply runs_iset; (apply (HQ _ c2); [exact B|exact Hz|apply upd_eq|]); intros t1' T' K1 K2; injection K1 as <-; change nn with (nN n D) in K2; rewrite M2 in K2; injection K2 as <-; (split; [exact T2|rewrite H00; apply upd_eq]).
Qed.
End T.

Section Parts.
Variables (E : env) (P : paramset).
Hypothesis HE : env_bytes_ok E.
Notation s := (digestSizeBytes P).
Variables (n D : nat).
Hypothesis Hn : 2 <= n.
Hypothesis HnD : n <= 2 ^ D.

Lemma parts_checked salt (LD : list (option bytes)) t : saltSizeBytes P <= length salt ->
  shape n D s t -> (forall x, hv t x = true -> ext n D x = true) -> length LD = n -> (forall l (d : bytes), nth l LD None = Some d -> s <= length d) ->
  exists o, copy_leaves n 0 LD t = Ok o /\ match o with
    | None => exists l, l < n /\ given LD l = true /\ hv t (nF D + l) = true
    | Some t1 => exists T, for_down (nN n D) (computeParentHash E P salt) t1 = Ok T /\ checked E P n D salt LD t T
    end.
Proof.
  intros Hsalt Ht He HLD Hlen. pose proof (copy_leaves_ok P n D Hn HnD LD HLD Hlen n 0 t eq_refl Ht) as K. apply ok_ex in K. destruct K as (o & Eo & K). exists o. split; [exact Eo|].
  destruct o as [t1|].
  2:{ destruct K as (l & Hl & Hg & Hh). exists l. split; [lia|auto]. }
  destruct K as (As & Ag & Ah & An & Ao). rewrite Nat.add_0_r in *.
  assert (Hgn : forall x, (nF D <=? x) && given_node n D LD x = given_node n D LD x).
  { intros x. unfold given_node. destruct (nF D <=? x); reflexivity. }
  assert (Ah' : forall x, hv t1 x = known n D t LD x) by (intros x; rewrite Ah, Hgn; reflexivity).
  assert (Hgl : forall l d, l < n -> nth l LD None = Some d -> given_node n D LD (nF D + l) = true).
  { intros l d Hl Hd. unfold given_node. replace (nF D + l - nF D) with l by lia. unfold given. rewrite Hd. lia. }
  assert (He1 : forall x, hv t1 x = true -> ext n D x = true).
  { intros x. rewrite Ah'. unfold known. intros Hx. apply orb_true_iff in Hx. destruct Hx as [Hx|Hx]; auto.
    unfold given_node in Hx. apply andb_true_iff in Hx. destruct Hx as [Hx _].
    replace x with (nF D + (x - nF D)) by lia. apply (TreeMissing.ext_leaf n D Hn HnD). lia. }
  pose proof (merkle_all E P HE n D Hn HnD salt Hsalt t1 As He1) as K. rewrite (sh_N _ _ _ _ As) in K. apply ok_ex in K. destruct K as (T & ET & Is & Ih & It & Iz & Ic).
  exists T. split; [exact ET|]. split; [auto|]. split; [intros l Hl; apply Ag; lia|]. split; [intros p; rewrite (Ih p), Ah'; reflexivity|].
  split; [|split; [|split]].
  - intros l d Hl Hd. rewrite It.
    + apply An; auto. lia.
    + rewrite Ah'. unfold known. rewrite (Hgl l d Hl Hd). apply orb_true_r.
  - intros x Hx. rewrite It by (rewrite Ah'; unfold known; rewrite Hx; reflexivity).
    apply Ao. rewrite Hgn. destruct (given_node n D LD x) eqn:Eg; auto.
    unfold given_node in Eg. apply andb_true_iff in Eg. destruct Eg as [Eg1 Eg2].
    rewrite <- (Ag (x - nF D)) by (auto; lia). replace (nF D + (x - nF D)) with x by lia. auto.
  - intros x Hx. rewrite Iz by auto. apply Ao. rewrite Hgn.
    rewrite Ih, Ah' in Hx. unfold known in Hx. destruct (given_node n D LD x); auto. rewrite orb_true_r in Hx. discriminate.
  - intros p Hp Hk. apply Ic; auto. rewrite Ah'. auto.
Qed.
End Parts.

Theorem check_code U p P n st q v known leaves salt :
  locals_ok U -> get_param_set p = Some P -> 2 <= n -> Nat.log2_up n < 30 -> check_call P n st q v known leaves salt ->
  exists st' t, run U (c_verifyMerkleTree P n (supplied leaves)) st = Some (st', t) /\ nx st' = nx st /\ chg (nx st) (mm st) (mm st') (tree_parts n (digestSizeBytes P) q) /\
    ((exists x, given_leaf n leaves x /\ known x = true) -> iv st' 5 = 1) /\
    (~ (exists x, given_leaf n leaves x /\ known x = true) -> exists v' known', completes P n leaves salt v known v' known' /\
       (forall x, x < node_count n -> holds st' (q x) (v' x)) /\ holds st' (q (node_count n)) (flags n known') /\ iv st' 5 = if known' 0 then 0 else 1).
Proof.
  intros HU HP Hn HB HM. destruct (digest_sizes p P HP) as [Hs Hsalt]. set (D := Nat.log2_up n) in *. pose proof (shake_env toy_env toy_env_bytes) as HEs.
  pose proof (D_bound n D Hn eq_refl HB) as HnD. pose proof (pow_pos D) as PD. assert (Nn : node_count n = nF D + n) by (unfold node_count, nF; fold D; lia).
  destruct (ck_salt _ _ _ _ _ _ _ _ HM) as (_ & _ & _ & L4). pose proof (ck_count _ _ _ _ _ _ _ _ HM) as HL. destruct (ck_marks _ _ _ _ _ _ _ _ HM) as (b & Hb & Mb).
  pose proof (tree_of_shape P n Hs Hsalt Hn HB st q v known leaves salt HM b Mb) as H0. set (t0 := tree_of P n v known b) in *.
  assert (Hk : forall x, hv t0 x = (x <? node_count n) && known x) by (intros x; apply hv_of).
  assert (Hv : forall x, x < node_count n -> nd t0 x = v x) by (intros x; apply nd_of).
  assert (He : forall x, hv t0 x = true -> ext n D x = true).
  { intros x Hx. rewrite Hk in Hx. apply andb_true_iff in Hx. destruct Hx as [H1 H2]. apply (above_ext n x Hn). apply (ck_above _ _ _ _ _ _ _ _ HM x); [lia|exact H2]. }
  assert (Hlen : forall l (d : bytes), nth l leaves None = Some d -> digestSizeBytes P <= length d).
  { intros l d Hd. apply (ck_leaves _ _ _ _ _ _ _ _ HM l d). destruct (Nat.lt_ge_cases l (length leaves)) as [K|K]; [|rewrite nth_overflow in Hd by exact K; discriminate].
    rewrite nth_error_nth' with (d := None) by exact K. rewrite Hd. reflexivity. }
  assert (Gv : forall l d, nth_error leaves l = Some (Some d) <-> nth l leaves None = Some d).
  { intros l d. split; intros K; [exact (nth_error_nth _ _ _ K)|]. destruct (nth_error leaves l) as [o|] eqn:El; [rewrite (nth_error_nth _ _ _ El) in K; congruence|].
    apply nth_error_None in El. rewrite nth_overflow in K by exact El. discriminate. }
  assert (Gn : forall x, given_leaf n leaves x <-> given_node n D leaves x = true).
  { intros x. split.
    - intros (l & d & -> & Hd). assert (l < n) by (rewrite <- HL; apply nth_error_Some; congruence). apply Gv in Hd. unfold given_node, given. replace (node_count n - n + l - nF D) with l by lia. rewrite Hd. lia.
    - intros K. unfold given_node in K. apply andb_true_iff in K. destruct K as [K1 K2]. unfold given in K2. destruct (nth (x - nF D) leaves None) as [d|] eqn:Ed; [|discriminate].
      exists (x - nF D), d. split; [lia|apply Gv, Ed]. }
  destruct (parts_checked (with_shake toy_env) P HEs n D Hn HnD salt leaves t0 ltac:(lia) H0 He HL Hlen) as (o1 & M1 & K1).
  assert (M : exists o, verifyMerkleTree (with_shake toy_env) P t0 leaves salt = Ok o /\ (o1 = None -> o = None)).
  { unfold verifyMerkleTree. rewrite (sh_n _ _ _ _ H0), M1. cbn [bind]. destruct o1 as [t1|]; [|exists None; auto]. destruct K1 as (T & MT & CT).
    pose proof (copy_leaves_ok P n D Hn HnD leaves HL Hlen n 0 t0 eq_refl H0) as K. rewrite M1 in K. cbn [ok] in K. destruct K as (S1 & _). rewrite (sh_N _ _ _ _ S1), MT. cbn [bind].
    rewrite (rd_have n D (digestSizeBytes P)); [|apply CT|unfold nN; lia]. cbn [bind]. destruct (hv T 0); eexists; (split; [reflexivity|discriminate]). }
  destruct M as (o & M & On).
  assert (R : runs U (c_verifyMerkleTree P n (supplied leaves)) st (fun z => nx z = nx st /\ exists c, heap (nx st) (mm st) (tree_layout n (digestSizeBytes P) q) (nx st) (mm z) c /\
     iv z 5 = (match o with Some _ => 0 | None => 1 end) /\ (forall t1 T, o1 = Some t1 -> for_down (nN n D) (computeParentHash (with_shake toy_env) P salt) t1 = Ok T -> trel n D c T /\ iv z 5 = (if hv T 0 then 0 else 1)))).
  { apply (run_check U HU toy_env P n Hs Hsalt Hn HB st q v known leaves salt HM b o _ Hb Mb M). intros z c A H I5 Hx. split; [exact A|]. exists c. split; [exact H|]. split; [exact I5|].
    intros t1 T -> MT. apply (Hx t1 T M1 MT). }
  unfold runs in R. destruct (run U (c_verifyMerkleTree P n (supplied leaves)) st) as [[z t]|]; [|destruct R]. destruct R as (A & c & H & I5 & HT).
  exists z, t. split; [reflexivity|]. split; [exact A|]. split; [exact (heap_chg _ _ _ _ _ _ H)|].
  assert (G : forall k, k < node_count n + 2 -> holds z (q k) (c k)).
  { intros k Hk'. split; [rewrite A; exact (heap_pts _ _ _ _ _ _ H k Hk')|exact (heap_ok _ _ _ _ _ _ H k Hk')]. }
  destruct o1 as [t1|].
  2:{ split; [intros _; rewrite I5, (On eq_refl); reflexivity|]. intros No. elim No. destruct K1 as (l & Hl & Hg & Hh). exists (nF D + l). rewrite Hk in Hh. apply andb_true_iff in Hh. split; [|apply Hh].
      apply Gn. unfold given_node. replace (nF D + l - nF D) with l by lia. rewrite Hg. lia. }
  destruct K1 as (T & MT & Sh & Cg & Ch & Cl & Ck & Cz & Cc). destruct (HT t1 T eq_refl MT) as ((T1 & T2 & T3) & IT).
  change (nN n D) with (node_count n) in *.
  split.
  { intros (x & Hx & Kx). exfalso. pose proof Hx as (l & d & -> & Hd). assert (l < n) by (rewrite <- HL; apply nth_error_Some; congruence). apply Gv in Hd.
    assert (X : hv t0 (nF D + l) = false) by (apply Cg; [assumption|unfold given; rewrite Hd; reflexivity]). rewrite Hk in X. replace (node_count n - n + l) with (nF D + l) in Kx by lia. rewrite Kx in X. lia. }
  intros _. assert (Kn : forall x, x < node_count n -> TreeVerify.known n D t0 leaves x = known x || given_node n D leaves x).
  { intros x Hx. unfold TreeVerify.known. rewrite Hk. replace (x <? node_count n) with true by lia. reflexivity. }
  assert (Ex : forall x, x < node_count n -> hv T x = true -> ext n D x = true).
  { intros x Hx Kx. rewrite Ch, Kn in Kx by exact Hx. apply orb_true_iff in Kx. destruct Kx as [Kx|Kx].
    - apply orb_true_iff in Kx. destruct Kx as [Kx|Kx]; [apply He; rewrite Hk, Kx; lia|]. unfold given_node in Kx. apply andb_true_iff in Kx. destruct Kx as [Kx _].
      replace x with (nF D + (x - nF D)) by lia. apply (TreeMissing.ext_leaf n D Hn HnD). lia.
    - apply andb_true_iff in Kx. destruct Kx as [Kx _]. apply (ext_par n D Hn HnD) in Kx; [|lia]. rewrite par_left in Kx. exact Kx. }
  exists (nd T), (hv T). split; [split|split; [|split]].
  - intros x Hx. rewrite Ch, Kn by exact Hx. rewrite !orb_true_iff, andb_true_iff. unfold kids_known. rewrite andb_true_iff, orb_true_iff, negb_true_iff, Gn. pose proof (above_ext n (2 * x + 2) Hn) as Ab. fold D in Ab.
    split.
    + intros [[K|K]|(K1 & K2 & K3)]; [left; exact K|right; left; exact K|right; right]. split; [apply (ext_lt n D), K1|]. split; [exact K2|]. intros K. apply Ab in K. destruct K3; congruence.
    + intros [K|[K|(K1 & K2 & K3)]]; [left; left; exact K|left; right; exact K|right]. split; [apply Ex; assumption|]. split; [exact K2|]. destruct (ext n D (2 * x + 2)); [right; apply K3, Ab; reflexivity|left; reflexivity].
  - intros l d Hd. assert (l < n) by (rewrite <- HL; apply nth_error_Some; congruence). replace (node_count n - n + l) with (nF D + l) by lia. apply Cl; [assumption|apply Gv, Hd].
  - intros x Hx [K|K]; [rewrite Ck by (rewrite Hk, K; lia)|rewrite Cz by exact K]; apply Hv, Hx.
  - intros x Hx K1 K2 K3. rewrite Cc at 1; [|exact K1|].
    + unfold mhash, hash, mright. change (nN n D) with (node_count n). cbn [prefix_bytes concat app]. rewrite app_nil_r, (firstn_all2 salt) by lia. reflexivity.
    + rewrite Kn, K2 by exact Hx. destruct (given_node n D leaves x) eqn:Eg; [elim K3; apply Gn, Eg|reflexivity].
  - intros x Hx. rewrite <- (T1 x Hx). apply G. lia.
  - assert (Fl : c (node_count n) = flags n (hv T)).
    { rewrite T2. unfold flags. transitivity (map flag (map (hv T) (seq 0 (node_count n)))); [|rewrite map_map; reflexivity]. f_equal.
      apply nth_ext with (d := false) (d' := false); [rewrite map_length, seq_length; apply (sh_have _ _ _ _ Sh)|]. intros i Hi. rewrite (sh_have _ _ _ _ Sh) in Hi. change (nN n D) with (node_count n) in Hi.
      symmetry. apply nth_error_nth. rewrite nth_error_map, nth_error_nth' with (d := 0) by (rewrite seq_length; exact Hi). rewrite seq_nth by exact Hi. reflexivity. }
    rewrite <- Fl. apply G. lia.
  - exact IT.
Qed.

(** A memory with a tree of zeros, of which some nodes are known, and with the leaves, the salt and the round constants beside it. *)
Definition data_of (o : option bytes) : bytes := match o with Some d => d | None => [] end.
Definition check_state (P : paramset) (n : nat) (known : nat -> bool) (leaves : list (option bytes)) (salt : bytes) : state :=
  mkState (fun _ => 0) (fun _ => 0%N)
    (args [] [[(4, 0)]; []; []; map (fun i => (5 + i, 0)) (seq 0 n); [(3, 0)]; []; []; []; []; map (tree_place n (digestSizeBytes P)) (seq 0 (node_count n)); [(1, 0)]; [(2, 0)]])
    (fun b => nth b ([zeros (node_count n * digestSizeBytes P); flags n known; flags n (ext n (Nat.log2_up n)); salt; round_constant_bytes] ++ map data_of leaves) []) (5 + n) 0.
Lemma flags_ok n k : bytes_ok (flags n k).
Proof. apply Forall_forall. intros x Hx. apply in_map_iff in Hx. destruct Hx as (i & <- & _). destruct (k i); reflexivity. Qed.
Lemma check_called P n known leaves salt : 0 < digestSizeBytes P -> 2 <= n -> length leaves = n -> (forall x, x < node_count n -> known x = true -> above_leaf n x) ->
  (forall d, In (Some d) leaves -> bytes_ok d /\ digestSizeBytes P <= length d) -> bytes_ok salt -> length salt = saltSizeBytes P ->
  check_call P n (check_state P n known leaves salt) (tree_place n (digestSizeBytes P)) (fun _ => zeros (digestSizeBytes P)) known leaves salt.
Proof.
  intros Hs Hn HL Hk LL B4 L4. set (z := check_state P n known leaves salt).
  destruct (new_tree_in n (digestSizeBytes P) (merkle_state P n (map data_of leaves) salt) ([salt; round_constant_bytes] ++ map data_of leaves) Hs eq_refl ltac:(cbn; lia) eq_refl eq_refl eq_refl) as [Nt Out].
  assert (Ph : tree_place n (digestSizeBytes P) (node_count n) = (1, 0)) by (unfold tree_place; rewrite Nat.ltb_irrefl; f_equal; lia).
  assert (Pe : tree_place n (digestSizeBytes P) (node_count n + 1) = (2, 0)) by (unfold tree_place; rewrite (proj2 (Nat.ltb_ge (node_count n + 1) (node_count n))) by lia; f_equal; lia).
  split.
  - exact (nt_apart _ _ _ _ Nt).
  - intros x Hx. split; [|apply length_zeros]. destruct (nt_zero _ _ _ _ Nt x ltac:(lia)) as [A B]. rewrite part_node in A by exact Hx.
    assert (Pl : tree_place n (digestSizeBytes P) x = (0, x * digestSizeBytes P)) by (unfold tree_place; rewrite (proj2 (Nat.ltb_lt x (node_count n))) by exact Hx; reflexivity).
    rewrite Pl in *. split; [exact A|apply bytes_ok_zeros].
  - rewrite Ph. split; [apply pts_block; [cbn; lia|reflexivity]|apply flags_ok].
  - exact Hk.
  - exists (flags n (ext n (Nat.log2_up n))). rewrite Pe. split; [split; [apply pts_block; [cbn; lia|reflexivity]|apply flags_ok]|].
    split; [unfold flags; rewrite map_length, seq_length; reflexivity|]. intros x Hx.
    assert (F : nth x (flags n (ext n (Nat.log2_up n))) 0%N = if ext n (Nat.log2_up n) x then 1%N else 0%N).
    { apply nth_error_nth. unfold flags. rewrite nth_error_map, nth_error_nth' with (d := 0) by (rewrite seq_length; exact Hx). rewrite seq_nth by exact Hx. reflexivity. }
    rewrite F. pose proof (above_ext n x Hn) as [K1 K2]. split; intros K; [rewrite (K1 K); reflexivity|]. destruct (ext n (Nat.log2_up n) x); [elim K; auto|reflexivity].
  - exact (nt_nodes _ _ _ _ Nt).
  - exact (nt_have _ _ _ _ Nt).
  - exact (nt_exists _ _ _ _ Nt).
  - exact HL.
  - intros i d Hi. assert (i < n) by (rewrite <- HL; apply nth_error_Some; congruence). destruct (LL d (nth_error_In _ _ Hi)) as [Bd Ld]. split; [exact Ld|]. exists (5 + i, 0).
    split; [change (pv z 3) with (map (fun i => (5 + i, 0)) (seq 0 n)); rewrite nth_error_map, nth_error_nth' with (d := 0) by (rewrite seq_length; lia); rewrite seq_nth by lia; reflexivity|].
    split; [apply pts_block; [cbn; lia|]|].
    + change (mm z (5 + i)) with (nth i (map data_of leaves) []). apply nth_error_nth. rewrite nth_error_map, Hi. reflexivity.
    + split; [exact Bd|apply Out; lia].
  - exists (3, 0). split; [reflexivity|]. split; [|exact L4]. split; [apply pts_block; [cbn; lia|reflexivity]|]. split; [exact B4|apply Out; lia].
  - exists (4, 0). split; [reflexivity|]. split; [|reflexivity]. split; [apply pts_block; [cbn; lia|reflexivity]|]. split; [|apply Out; lia]. apply Forall_forall. intros x Hx. revert x Hx. apply Forall_forall. repeat constructor.
Qed.
