(** Seed trees on memory with pointers. *)

From Coq Require Import List NArith Arith Bool Lia ZifyBool ZifyNat ZifyN.
From Verif Require Import Base Params Env Spec MiniC CodeLowMC CodeSpec HashSpec CodeKeccakSpec CodeZkbSpec CodeHashUses Tree CodeTree CodeTreeSpec
  BaseFacts ParamFacts HashProofs MiniCFacts CodeRules CodeLowMCProofs CodeHeap CodeP3Lin CodeP3Sim CodeHashUsesTop CodeSignRules TreeShape TreeSeed TreeTop.
From Verif Require CodeHashUsesSpec CodeSignProofs.
Import ListNotations.
Local Open Scope c_scope.

Definition flag (b : bool) : N := if b then 1%N else 0%N.
Lemma nth_flag l i : nth i (map flag l) 0%N = flag (nth i l false).
Proof. exact (map_nth flag l false i). Qed.
Lemma map_set {A B} (f : A -> B) l i x : map f (list_set l i x) = list_set (map f l) i (f x).
Proof. revert i. induction l as [|a l IH]; intros [|i]; cbn [list_set map]; f_equal; auto. Qed.

Section MS.
Variables (n0 : nat) (m0 : memory) (U : nat -> nat -> bytes) (L : layout).
(** memset. *)
Lemma h_memset_part p b e y c k o (Q : state -> Prop) : peval (iv y) (pv y) p = Some (fst (reg L k), snd (reg L k) + o) -> k < cnt L -> o + ieval (iv y) e <= sz L k ->
  0 < ieval (iv y) e -> byte b -> heap n0 m0 L (nx y) (mm y) c ->
  (forall m', heap n0 m0 L (nx y) m' (cset c k (blit_list (c k) o (repeat b (ieval (iv y) e)))) -> Q (set_mm y m')) -> runs U (MemSet p b e) y Q.
Proof.
  intros Ep Hk Se Hp Hb H HQ. pose proof (heap_pts _ _ _ _ _ _ H k Hk) as P1. pose proof (heap_len _ _ _ _ _ _ H k Hk) as L1.
  set (n := ieval (iv y) e) in *. pose proof (pts_sub _ _ _ _ o n P1 ltac:(lia)) as P3. set (x := firstn n (skipn o (c k))) in *.
  assert (Lx : length x = n) by (unfold x; rewrite firstn_length, skipn_length; lia).
  eapply runs_memset; [exact Ep| |]; fold n.
  - apply (pts_valid (nx y) _ _ x); auto; lia.
  - destruct (wrmem_pts (nx y) (mm y) (fst (reg L k), snd (reg L k) + o) (repeat b n)) as [D1 D2].
    + apply P3.
    + rewrite repeat_length. pose proof (pts_bound _ _ _ _ P3 ltac:(intros Hx; rewrite Hx in Lx; cbn in Lx; lia)). lia.
    + apply HQ. apply (heap_patch n0 m0 L (nx y) (mm y)); auto; [rewrite repeat_length; lia|]. apply Forall_forall. intros v Hv. apply repeat_spec in Hv. subst. exact Hb.
Qed.
End MS.

Section G.
Variables (n0 : nat) (m0 : memory) (U : nat -> nat -> bytes) (L : layout) (n1 : nat) (pv0 : nat -> list ptr) (nn : nat).
Hypothesis Hc : nn + 2 <= cnt L.
Hypothesis Hsh : sz L nn = nn.
Hypothesis Hse : sz L (nn + 1) = nn.
Hypothesis P10 : pv0 10 = [reg L nn].
Hypothesis P11 : pv0 11 = [reg L (nn + 1)].

Definition at_st (c : nat -> bytes) (z : state) : Prop := pv z = pv0 /\ nx z = n1 /\ heap n0 m0 L n1 (mm z) c.

Lemma p_have z i : pv z = pv0 -> peval (iv z) (pv z) (PAdd (P0 10) (IC i)) = Some (fst (reg L nn), snd (reg L nn) + i).
Proof. intros ->. cbn [peval P0 ieval]. rewrite P10. cbn [nth_error]. destruct (reg L nn). reflexivity. Qed.
Lemma p_exists z i : pv z = pv0 -> peval (iv z) (pv z) (PAdd (P0 11) (IC i)) = Some (fst (reg L (nn + 1)), snd (reg L (nn + 1)) + i).
Proof. intros ->. cbn [peval P0 ieval]. rewrite P11. cbn [nth_error]. destruct (reg L (nn + 1)). reflexivity. Qed.

Lemma g_have c z i (Q : state -> Prop) : at_st c z -> i < nn ->
  (forall z', at_st c z' -> dv z' 0 = nth i (c nn) 0%N -> Q z') -> runs U (Ld 1 0 (PAdd (P0 10) (IC i))) z Q.
Proof.
  intros (A & B & H) Hi HQ. rewrite <- B in H. eapply (h_ld1 n0 m0 U L _ _ z c nn i); [exact H|lia|reflexivity|apply p_have, A|lia|].
  apply HQ; [|apply upd_eq]. split; [exact A|]. split; [exact B|]. rewrite <- B. exact H.
Qed.
Lemma g_set_have c z i (Q : state -> Prop) : at_st c z -> i < nn ->
  (forall z', at_st (cset c nn (list_set (c nn) i 1%N)) z' -> Q z') -> runs U (St 1 (PAdd (P0 10) (IC i)) (DC 1)) z Q.
Proof.
  intros (A & B & H) Hi HQ. rewrite <- B in H. eapply (h_st1 n0 m0 U L _ _ z c nn i); [exact H|lia|reflexivity|apply p_have, A|lia|].
  intros m' H'. cbn [deval] in H'. apply HQ. split; [exact A|]. split; [exact B|]. rewrite <- B. exact H'.
Qed.
Lemma g_set_exists c z i (Q : state -> Prop) : at_st c z -> i < nn ->
  (forall z', at_st (cset c (nn + 1) (list_set (c (nn + 1)) i 1%N)) z' -> Q z') -> runs U (St 1 (PAdd (P0 11) (IC i)) (DC 1)) z Q.
Proof.
  intros (A & B & H) Hi HQ. rewrite <- B in H. eapply (h_st1 n0 m0 U L _ _ z c (nn + 1) i); [exact H|lia|reflexivity|apply p_exists, A|lia|].
  intros m' H'. cbn [deval] in H'. apply HQ. split; [exact A|]. split; [exact B|]. rewrite <- B. exact H'.
Qed.

(** exists. *)
Lemma g_exists c z ex i b (Q : state -> Prop) : at_st c z -> c (nn + 1) = map flag ex -> exists_arr nn ex i = Ok b ->
  (forall z', at_st c z' -> iv z' 1 = (if b then 1 else 0) -> Q z') -> runs U (c_exists nn i) z Q.
Proof.
  intros X Ex M HQ. unfold exists_arr in M. unfold c_exists. pose proof X as (A & B & H). apply runs_if with (b := i <? nn); [reflexivity|].
  destruct (Nat.leb_spec nn i) as [Hi|Hi].
  - injection M as <-. replace (i <? nn) with false by lia. apply runs_iset. apply HQ; [|apply upd_eq]. split; [exact A|]. split; [exact B|exact H].
  - replace (i <? nn) with true by lia. apply runs_seq. rewrite <- B in H. eapply (h_ld1 n0 m0 U L _ _ z c (nn + 1) i); [exact H|lia|reflexivity|apply p_exists, A|lia|].
    apply runs_ifd. cbn [deval dv set_dv iv]. rewrite upd_eq, Ex, nth_flag. unfold rd in M. destruct (nth_error ex i) as [v|] eqn:Ei; [|discriminate]. injection M as ->.
    rewrite (nth_error_nth _ _ _ Ei). destruct b; cbn [flag N.eqb]; apply runs_iset; (apply HQ; [|apply upd_eq]; split; [exact A|split; [exact B|rewrite <- B; exact H]]).
Qed.

(** createTree. *)
Definition mark_body (i : nat) (ex : list bool) : res (list bool) :=
  bind (exists_arr nn ex (2 * i + 1)) (fun l => bind (if (l : bool) then Ok true else exists_arr nn ex (2 * i + 2)) (fun r =>
    if (r : bool) then wr ex i true else Ok ex)).

Lemma ceq1 z : ceval (iv z) (pv z) (CEq (IV 1) (IC 1)) = Some (iv z 1 =? 1).
Proof. reflexivity. Qed.

Lemma run_mark c z i ex ex' (Q : state -> Prop) : at_st c z -> length ex = nn -> c (nn + 1) = map flag ex -> mark_body i ex = Ok ex' ->
  (forall z', at_st (cset c (nn + 1) (map flag ex')) z' -> Q z') -> runs U (c_mark nn i) z Q.
Proof.
  intros X Le Ex M HQ. unfold mark_body in M. unfold c_mark. destruct (exists_arr nn ex (2 * i + 1)) as [l| | |] eqn:M1; cbn [bind] in M; try discriminate.
  assert (S1 : forall z', at_st c z' -> wr ex i true = Ok ex' -> runs U (St 1 (PAdd (P0 11) (IC i)) (DC 1)) z' Q).
  { intros z' X' W. apply wr_inv in W. destruct W as [W ->]. apply (g_set_exists c z' i); [exact X'|lia|]. intros z2 X2. apply HQ. rewrite map_set, <- Ex. exact X2. }
  apply runs_seq. apply (g_exists c z ex _ l _ X Ex M1). intros z1 X1 I1. eapply runs_if; [apply ceq1|]. rewrite I1. destruct l; cbn [Nat.eqb].
  - apply S1; assumption.
  - destruct (exists_arr nn ex (2 * i + 2)) as [r| | |] eqn:M2; cbn [bind] in M; try discriminate.
    apply runs_seq. apply (g_exists c z1 ex _ r _ X1 Ex M2). intros z2 X2 I2. eapply runs_if; [apply ceq1|]. rewrite I2. destruct r; cbn [Nat.eqb]; [apply S1; assumption|].
    apply runs_skip. injection M as <-. apply HQ. destruct X2 as (A & B & H). split; [exact A|]. split; [exact B|]. apply (heap_ext _ _ _ _ _ _ _ H).
    intros k _. unfold cset. destruct (Nat.eqb_spec k (nn + 1)) as [->|]; [symmetry; exact Ex|reflexivity].
Qed.

Lemma at_ext c c' z : at_st c z -> (forall k, k < cnt L -> c' k = c k) -> at_st c' z.
Proof. intros (A & B & H) X. split; [exact A|]. split; [exact B|]. apply (heap_ext _ _ _ _ _ _ _ H X). Qed.
Lemma len_mark i ex ex' : mark_body i ex = Ok ex' -> length ex' = length ex.
Proof.
  unfold mark_body. intros M. destruct (exists_arr nn ex (2 * i + 1)) as [l| | |]; cbn [bind] in M; try discriminate.
  destruct (if l then Ok true else exists_arr nn ex (2 * i + 2)) as [r| | |]; cbn [bind] in M; try discriminate.
  destruct r; [apply wr_inv in M; destruct M as [_ ->]; apply length_list_set|injection M as <-; reflexivity].
Qed.

Lemma run_marks i : forall c z ex ex' (Q : state -> Prop), at_st c z -> length ex = nn -> c (nn + 1) = map flag ex -> for_down i mark_body ex = Ok ex' ->
  (forall z', length ex' = nn -> at_st (cset c (nn + 1) (map flag ex')) z' -> Q z') -> runs U (c_marks nn i) z Q.
Proof.
  induction i as [|i IH]; intros c z ex ex' Q X Le Ex M HQ; cbn [for_down] in M; cbn [c_marks].
  - injection M as <-. apply runs_skip. apply HQ; [exact Le|]. apply (at_ext _ _ _ X). intros k _. unfold cset. destruct (Nat.eqb_spec k (nn + 1)) as [->|]; [symmetry; exact Ex|reflexivity].
  - destruct (mark_body (S i) ex) as [e1| | |] eqn:M1; cbn [bind] in M; try discriminate. pose proof (len_mark _ _ _ M1) as L1.
    apply runs_seq. apply (run_mark c z (S i) ex e1 _ X Le Ex M1). intros z1 X1. apply (IH _ z1 e1 ex' _ X1 ltac:(lia) (cset_eq _ _ _) M).
    intros z2 L2 X2. apply HQ; [exact L2|]. apply (at_ext _ _ _ X2). intros k _. unfold cset. destruct (k =? nn + 1); reflexivity.
Qed.

End G.

Lemma map_blit {A B} (f : A -> B) l o x : map f (blit_list l o x) = blit_list (map f l) o (map f x).
Proof. unfold blit_list. rewrite !map_app, firstn_map, skipn_map, map_length. reflexivity. Qed.
Lemma map_repeat' {A B} (f : A -> B) x k : map f (repeat x k) = repeat (f x) k.
Proof. induction k; cbn [repeat map]; f_equal; auto. Qed.

(** A tree in memory. *)
Section R.
Variables (s n D : nat).
Notation nn := (nN n D).
Definition trel (c : nat -> bytes) (t : tree) : Prop :=
  (forall k, k < nn -> c k = nd t k) /\ c nn = map flag (t_haveNode t) /\ c (nn + 1) = map flag (t_exists t).

Lemma put_node_eq t x d : shape n D s t -> x < nn -> length d = s ->
  put_node t x d = Ok (set_node t (list_set (t_nodes t) x d) (list_set (t_haveNode t) x true)).
Proof.
  intros H Hx Hd. unfold put_node. rewrite (rd_node n D s) by auto. cbn [bind]. rewrite blit0_all by (unfold nd; rewrite (sh_nl _ _ _ _ H); auto). cbn [bind].
  rewrite wr_ok by (rewrite (sh_nodes _ _ _ _ H); auto). cbn [bind]. rewrite wr_ok by (rewrite (sh_have _ _ _ _ H); auto). reflexivity.
Qed.
Lemma put_shape t x d t' : shape n D s t -> x < nn -> length d = s -> put_node t x d = Ok t' -> shape n D s t'.
Proof. intros H Hx Hd M. pose proof (put_node_ok n D s t x d H Hx Hd) as K. rewrite M in K. apply K. Qed.

Lemma trel_put c t x d : shape n D s t -> x < nn -> trel c t ->
  trel (cset (cset c x d) nn (list_set (c nn) x 1%N)) (set_node t (list_set (t_nodes t) x d) (list_set (t_haveNode t) x true)).
Proof.
  intros H Hx (T1 & T2 & T3). split; [|split]; cbn [set_node t_nodes t_haveNode t_exists].
  - intros k Hk. rewrite cset_neq by lia. unfold nd. cbn [set_node t_nodes]. rewrite nth_list_set by (rewrite (sh_nodes _ _ _ _ H); auto).
    unfold cset. destruct (k =? x); [reflexivity|apply T1, Hk].
  - rewrite cset_eq, map_set, <- T2. reflexivity.
  - rewrite !cset_neq by lia. exact T3.
Qed.

End R.

(** expandSeeds. *)
Section X.
Variables (n0 : nat) (m0 : memory) (U : nat -> nat -> bytes) (HU : locals_ok U) (L : layout) (n1 : nat) (pv0 : nat -> list ptr) (E : env) (P : paramset) (n D : nat).
Notation Es := (with_shake E).
Notation nn := (nN n D).
Notation s := (seedSizeBytes P).
Hypothesis Hs0 : 0 < s <= 32.
Hypothesis Hc : cnt L = nn + 3.
Hypothesis Hs : forall k, k < nn -> sz L k = s.
Hypothesis Hsh : sz L nn = nn.
Hypothesis Hse : sz L (nn + 1) = nn.
Hypothesis Hst : sz L (nn + 2) = 64.
Hypothesis P9 : forall k, k < nn -> nth_error (pv0 9) k = Some (reg L k).
Hypothesis P10 : pv0 10 = [reg L nn].
Hypothesis P11 : pv0 11 = [reg L (nn + 1)].
Hypothesis P12 : pv0 12 = [reg L (nn + 2)].
Variables (qr qs : ptr) (salt : bytes) (rep : nat).
Hypothesis P0' : pv0 0 = [qr].
Hypothesis A0 : snd qr mod 8 = 0.
Hypothesis R0 : ro n0 m0 L qr round_constant_bytes.
Hypothesis P4 : pv0 4 = [qs].
Hypothesis R4 : ro n0 m0 L qs salt.
Hypothesis B4 : bytes_ok salt.
Hypothesis L4 : saltSizeBytes P <= length salt.
Hypothesis S4 : short salt.

Notation at_ := (at_st n0 m0 L n1 pv0).
Lemma g_put c z t x o t' (Q : state -> Prop) : at_ c z -> trel n D c t -> shape n D s t -> x < nn -> o + s <= 64 ->
  put_node t x (firstn s (skipn o (c (nn + 2)))) = Ok t' ->
  (forall z' c', at_ c' z' -> trel n D c' t' -> c' (nn + 2) = c (nn + 2) -> Q z') -> runs U (c_put_seed P x o) z Q.
Proof.
  intros X T H Hx Ho M HQ. pose proof X as (A & B & Hh). unfold c_put_seed. apply runs_seq. rewrite <- B in Hh.
  set (d := firstn s (skipn o (c (nn + 2)))) in *.
  assert (Ld : length d = s).
  { unfold d. rewrite firstn_length, skipn_length. rewrite (heap_len _ _ _ _ _ _ Hh (nn + 2)) by lia. lia. }
  apply (h_memcpy_off n0 m0 U L _ _ _ z c x (nn + 2) o); cbn [ieval].
  - cbn [peval ieval]. rewrite A. apply P9, Hx.
  - cbn [peval P0 ieval]. rewrite A, P12. cbn [nth_error]. destruct (reg L (nn + 2)). reflexivity.
  - lia.
  - lia.
  - lia.
  - rewrite Hs by exact Hx. lia.
  - lia.
  - lia.
  - exact Hh.
  - intros m' H'. fold d in H'. rewrite CodeSignProofs.blit_list_all in H' by (rewrite Ld, (heap_len _ _ _ _ _ _ Hh x) by lia; apply Hs, Hx).
    apply (g_set_have n0 m0 U L n1 pv0 nn ltac:(lia) Hsh Hse P10 (cset c x d)); [|exact Hx|].
    + split; [exact A|]. split; [exact B|]. rewrite <- B. exact H'.
    + intros z2 X2. rewrite cset_neq in X2 by lia. apply (HQ z2 _ X2); [|rewrite !cset_neq by lia; reflexivity].
      rewrite (put_node_eq s n D t x d H Hx Ld) in M. injection M as <-. apply (trel_put s n D); assumption.
Qed.

Lemma run_hash c z t i d (Q : state -> Prop) : at_ c z -> trel n D c t -> shape n D s t -> i < nn ->
  hashSeed Es P (nd t i) salt HASH_PREFIX_1 rep i = Ok d ->
  (forall z' c', at_ c' z' -> trel n D c' t -> length d = 2 * s -> c' (nn + 2) = blit_list (c (nn + 2)) 0 d -> Q z') ->
  runs U (Call (c_hashSeed P HASH_PREFIX_1 rep i) [] [] [PA 0; PL []; PL []; PL [PV 9 (IC i)]; PA 4; PA 12] [] []) z Q.
Proof.
  intros X T H Hi M HQ. pose proof X as (A & B & Hh). rewrite <- B in Hh. set (ps := [[qr]; []; []; [reg L i]; [qs]; [reg L (nn + 2)]]).
  set (z0 := mkState (args 0 []) (args 0%N []) (args [] ps) (mm z) (nx z) (ct z)).
  assert (Li : length (nd t i) = s) by (apply (sh_nl _ _ _ _ H), Hi).
  destruct (hashSeed_code U HU E P HASH_PREFIX_1 z0 qr (reg L (nn + 2)) (nd t i) salt rep i) as [MS (z' & tr & Rn & Lv)].
  { reflexivity. }
  { apply (z_constants z ps qr); [exact (heap_ro _ _ _ _ _ _ _ _ Hh R0)|exact A0|reflexivity]. }
  { split; [reflexivity|]. split.
    - exists (firstn (2 * s) (c (nn + 2))). split; [rewrite firstn_length, (heap_len _ _ _ _ _ _ Hh (nn + 2)) by lia; lia|].
      apply pts_firstn, (heap_pts _ _ _ _ _ _ Hh). lia.
    - pose proof (proj2 R0 (nn + 2) ltac:(lia)) as Dj. change (length round_constant_bytes) with 192 in Dj. rewrite Hst in Dj. unfold disj in *. lia. }
  { exists (reg L i). split; [reflexivity|]. destruct T as (T1 & _). rewrite <- (T1 i Hi). split; [apply (heap_pts _ _ _ _ _ _ Hh); lia|].
    split; [apply (heap_ok _ _ _ _ _ _ Hh); lia|]. rewrite (T1 i Hi), Li. split; [lia|]. unfold short. rewrite Li. lia. }
  { exists qs. split; [reflexivity|]. split; [exact (heap_ro _ _ _ _ _ _ _ _ Hh R4)|auto]. }
  set (d' := shake _ _ _) in *. rewrite MS in M. injection M as Ed. rewrite Ed in *.
  assert (Ld : length d = 2 * s) by (rewrite <- Ed; apply shake_ok).
  apply (h_leaves n0 m0 U L _ _ _ ps z c (nn + 2) d).
  - cbn [pargevals pargeval pevals peval ieval]. rewrite A, P0', P4, P12, (P9 i Hi). reflexivity.
  - cbv zeta. fold z0. exists z', tr. split; [exact Rn|]. split; [exact Lv|]. intros m1 u1 H1. cbn [copy_back].
    apply (HQ _ (cset c (nn + 2) (blit_list (c (nn + 2)) 0 d))); [|..|exact Ld|apply cset_eq].
    + split; [exact A|]. split; [exact B|]. rewrite <- B. exact H1.
    + destruct T as (T1 & T2 & T3). split; [intros k Hk; rewrite cset_neq by lia; apply T1, Hk|]. split; rewrite cset_neq by lia; assumption.
  - lia.
  - lia.
  - rewrite <- Ed. apply shake_ok.
  - exact Hh.
Qed.

Lemma blit_halves (b d : bytes) : length d = 2 * s ->
  firstn s (skipn 0 (blit_list b 0 d)) = firstn s (skipn 0 d) /\ firstn s (skipn s (blit_list b 0 d)) = firstn s (skipn s d).
Proof.
  intros Ld. unfold blit_list. cbn [firstn app skipn]. rewrite skipn_app, !firstn_app, skipn_length. replace (s - length d) with 0 by lia. replace (s - (length d - s)) with 0 by lia.
  cbn [firstn]. rewrite !app_nil_r. auto.
Qed.

Lemma run_expand c z t i t' (Q : state -> Prop) : at_ c z -> trel n D c t -> shape n D s t -> 2 * i + 1 < nn -> expand_step Es P salt rep i t = Ok t' ->
  (forall z' c', at_ c' z' -> trel n D c' t' -> shape n D s t' -> Q z') -> runs U (c_expand P nn rep i) z Q.
Proof.
  intros X T H Hi M HQ. unfold expand_step in M. unfold c_expand. rewrite (rd_have n D s) in M by (auto; lia). cbn [bind] in M.
  apply runs_seq. apply (g_have n0 m0 U L n1 pv0 nn ltac:(lia) Hsh Hse P10 c z i _ X ltac:(lia)). intros z1 X1 D1. apply runs_ifd. cbn [deval]. rewrite D1.
  assert (Fl : forall c t x, trel n D c t -> nth x (c nn) 0%N = flag (hv t x)) by (intros c0 t0 x (_ & T2 & _); rewrite T2; apply nth_flag).
  rewrite (Fl c t i T). destruct (hv t i) eqn:Hhi; cbn [flag N.eqb negb] in *.
  2:{ apply runs_skip. injection M as <-. apply (HQ z1 c); assumption. }
  rewrite (rd_node n D s) in M by (auto; lia). cbn [bind] in M. destruct (hashSeed Es P (nd t i) salt HASH_PREFIX_1 rep i) as [d| | |] eqn:Md; cbn [bind] in M; try discriminate.
  apply runs_seq. apply (run_hash c z1 t i d _ X1 T H ltac:(lia) Md). intros z2 c2 X2 T2 Ld C2.
  replace (length d <=? 2 * MAX_SEED_SIZE_BYTES) with true in M by (unfold MAX_SEED_SIZE_BYTES; lia). cbn [guard bind] in M.
  destruct (blit_halves (c (nn + 2)) d Ld) as [Bl Br]. rewrite <- C2 in Bl, Br.
  rewrite (rd_have n D s) in M by (auto; lia). cbn [bind] in M.
  destruct (if negb (hv t (2 * i + 1)) then bind (slice d 0 s) (fun x => put_node t (2 * i + 1) x) else Ok t) as [t1| | |] eqn:M1; cbn [bind] in M; try discriminate.
  apply runs_seq. apply (g_have n0 m0 U L n1 pv0 nn ltac:(lia) Hsh Hse P10 c2 z2 (2 * i + 1) _ X2 ltac:(lia)). intros z3 X3 D3.
  apply runs_seq. apply runs_mono with (Q := fun z4 => exists c4, at_ c4 z4 /\ trel n D c4 t1 /\ shape n D s t1 /\ c4 (nn + 2) = c2 (nn + 2)).
  { apply runs_ifd. cbn [deval]. rewrite D3, (Fl c2 t _ T2). destruct (hv t (2 * i + 1)); cbn [flag N.eqb negb] in *.
    - apply runs_skip. injection M1 as <-. exists c2. auto.
    - rewrite slice_ok in M1 by lia. cbn [bind] in M1. rewrite <- Bl in M1.
      apply (g_put c2 z3 t (2 * i + 1) 0 t1 _ X3 T2 H Hi ltac:(lia) M1). intros z4 c4 X4 T4 C4. exists c4. split; [exact X4|]. split; [exact T4|]. split; [|exact C4].
      apply (put_shape s n D t (2 * i + 1) _ t1 H Hi) in M1; [exact M1|]. rewrite Bl, firstn_length, skipn_length. lia. }
  intros z4 (c4 & X4 & T4 & H4 & C4). destruct T4 as (T4a & T4b & T4c). assert (T4 : trel n D c4 t1) by (split; auto).
  destruct (tree_exists t1 (2 * i + 2)) as [er| | |] eqn:Me; cbn [bind] in M; try discriminate.
  unfold tree_exists in Me. rewrite (sh_N _ _ _ _ H4) in Me.
  apply runs_seq. apply (g_exists n0 m0 U L n1 pv0 nn ltac:(lia) Hsh Hse P11 c4 z4 (t_exists t1) (2 * i + 2) er _ X4 T4c Me). intros z5 X5 I5.
  eapply runs_if; [apply ceq1|]. rewrite I5. destruct er; cbn [Nat.eqb].
  2:{ apply runs_skip. injection M as <-. apply (HQ z5 c4); assumption. }
  destruct (Nat.lt_ge_cases (2 * i + 2) nn) as [Hi2|Hi2].
  2:{ unfold exists_arr in Me. replace (nn <=? 2 * i + 2) with true in Me by lia. discriminate. }
  rewrite (rd_have n D s) in M by auto. cbn [bind] in M.
  apply runs_seq. apply (g_have n0 m0 U L n1 pv0 nn ltac:(lia) Hsh Hse P10 c4 z5 (2 * i + 2) _ X5 Hi2). intros z6 X6 D6.
  apply runs_ifd. cbn [deval]. rewrite D6, (Fl c4 t1 _ T4). destruct (hv t1 (2 * i + 2)); cbn [flag N.eqb negb] in *.
  - apply runs_skip. injection M as <-. apply (HQ z6 c4); assumption.
  - rewrite slice_ok in M by lia. cbn [bind] in M. rewrite <- Br, <- C4 in M.
    apply (g_put c4 z6 t1 (2 * i + 2) s t' _ X6 T4 H4 Hi2 ltac:(lia) M). intros z7 c7 X7 T7 _. apply (HQ z7 c7); auto.
    apply (put_shape s n D t1 (2 * i + 2) _ t' H4 Hi2) in M; [exact M|]. rewrite C4, Br, firstn_length, skipn_length. lia.
Qed.

Lemma run_expands k : forall i c z t t' (Q : state -> Prop), at_ c z -> trel n D c t -> shape n D s t -> (0 < k -> 2 * (i + k - 1) + 1 < nn) ->
  for_loop k i (expand_step Es P salt rep) t = Ok t' ->
  (forall z' c', at_ c' z' -> trel n D c' t' -> shape n D s t' -> Q z') -> runs U (c_expands P nn rep i k) z Q.
Proof.
  induction k as [|k IH]; intros i c z t t' Q X T H Hi M HQ; cbn [for_loop] in M; cbn [c_expands].
  - injection M as <-. apply runs_skip. apply (HQ z c); assumption.
  - destruct (expand_step Es P salt rep i t) as [t1| | |] eqn:M1; cbn [bind] in M; try discriminate.
    apply runs_seq. apply (run_expand c z t i t1 _ X T H ltac:(lia) M1). intros z1 c1 X1 T1 H1. apply (IH (S i) c1 z1 t1 t' Q X1 T1 H1); [lia|exact M|exact HQ].
Qed.
End X.

(** createTree on lists, in parts. *)
Lemma createTree_inv n s t : createTree n s = Ok t -> let nn := num_nodes n in exists ex, n <= nn /\
  for_down (nn - n) (mark_body nn) (blit_list (repeat false nn) (nn - n) (repeat true n)) = Ok ex /\ 0 < length ex /\
  t_exists t = list_set ex 0 true /\ t_nodes t = repeat (zeros s) nn /\ t_haveNode t = repeat false nn.
Proof.
  unfold createTree. fold (num_nodes n). cbv zeta. set (nn := num_nodes n). intros M. destruct (guard _); cbn [bind] in M; try discriminate.
  destruct (blit _ _ _) as [e0| | |] eqn:M0; cbn [bind] in M; try discriminate.
  change (for_down (nn - n) _ e0) with (for_down (nn - n) (mark_body nn) e0) in M. destruct (for_down _ _ _) as [e1| | |] eqn:M1; cbn [bind] in M; try discriminate.
  destruct (wr e1 0 true) as [e2| | |] eqn:M2; cbn [bind] in M; try discriminate. injection M as <-. apply wr_inv in M2. destruct M2 as [A ->].
  unfold blit in M0. destruct (nn - n + length (repeat true n) <=? length (repeat false nn)) eqn:Hl; [|discriminate]. injection M0 as <-.
  apply Nat.leb_le in Hl. rewrite !repeat_length in Hl. exists e1. repeat (split; [first [assumption|reflexivity|lia]|]). reflexivity.
Qed.
Lemma num_nodes_eq n D : 2 <= n -> D = Nat.log2_up n -> D < 30 -> num_nodes n = nN n D.
Proof.
  intros Hn HD HB. unfold num_nodes. rewrite (ceil_D n D Hn HD HB). pose proof (D_bound n D Hn HD HB). unfold nN. rewrite Nat.add_sub, Nat.add_1_r, pow_S. pose proof (pow_pos D). lia.
Qed.
Lemma getParent_parent x l : getParent x = Ok l -> parent x = l.
Proof.
  unfold getParent, isLeftChild, parent. destruct (x =? 0); cbn [negb c_assert bind]; [discriminate|]. destruct (x mod 2 =? 1); intros [= <-]; reflexivity.
Qed.

Lemma part_node n s k : k < node_count n -> tree_part n s k = s.
Proof. intros H. unfold tree_part. apply Nat.ltb_lt in H. rewrite H. reflexivity. Qed.
Lemma part_rest n s k : node_count n <= k -> tree_part n s k = node_count n.
Proof. intros H. unfold tree_part. apply Nat.ltb_ge in H. rewrite H. reflexivity. Qed.
Definition tree_layout (n s : nat) (q : nat -> ptr) : layout := mkLayout (node_count n + 2) q (tree_part n s).
Lemma tree_ro n s st q p l : reads st (tree_parts n s q) p l -> ro (nx st) (mm st) (tree_layout n s q) p l.
Proof. intros (A & _ & B). split; [exact A|]. intros k Hk. apply B. unfold tree_parts. apply in_map_iff. exists k. split; [reflexivity|]. apply in_seq. cbn [tree_layout cnt] in Hk. lia. Qed.

(** A new tree. *)
Section N.
Variables (U : nat -> nat -> bytes) (n s : nat).
Notation D := (Nat.log2_up n).
Notation nn := (node_count n).
Hypothesis Hn : 2 <= n.
Hypothesis HB : D < 30.
Variables (st : state) (q : nat -> ptr).
Hypothesis HM : new_tree n s st q.
Let n0 := nx st.
Let m0 := mm st.
Notation vl := (tree_layout n s q).
Lemma tree_heap : heap n0 m0 vl n0 (mm st) (fun k => zeros (tree_part n s k)).
Proof.
  split; [split| | | |]; cbn [tree_layout cnt reg sz].
  - auto.
  - intros k Hk. destruct (nt_zero _ _ _ _ HM k Hk) as [[A _] _]. exact A.
  - intros k j Hi Hj Hne. apply (nt_apart _ _ _ _ HM k j (q k) (tree_part n s k) (q j) (tree_part n s j)); [| |exact Hne];
      unfold tree_parts; rewrite nth_error_map, nth_error_nth' with (d := 0) by (rewrite seq_length; lia); rewrite seq_nth by lia; reflexivity.
  - intros k Hk. apply (nt_zero _ _ _ _ HM k Hk).
  - intros k Hk. apply length_zeros.
  - intros k Hk. apply bytes_ok_zeros.
  - apply chg_refl.
Qed.

Notation at0 := (at_st n0 m0 vl n0 (pv st)).

Lemma run_create t (Q : state -> Prop) : createTree n s = Ok t -> shape n D s t ->
  (forall z c, at0 c z -> trel n D c t -> Q z) -> runs U (c_createTree n) st Q.
Proof.
  intros M H HQ. destruct (createTree_inv _ _ _ M) as (ex & Hnn & F & Lx & T3 & T1 & T2). cbv zeta in *. unfold c_createTree.
  rewrite (num_nodes_eq n D Hn eq_refl HB) in *. change (nN n D) with nn in *. cbv zeta.
  pose proof tree_heap as Hh. pose proof (nt_exists _ _ _ _ HM) as E11.
  apply runs_seq. apply (h_memset_part n0 m0 U vl _ _ _ st (fun k => zeros (tree_part n s k)) (nn + 1) (nn - n)); cbn [ieval].
  - cbn [peval P0 ieval]. rewrite E11. cbn [nth_error tree_layout reg]. destruct (q (nn + 1)). reflexivity.
  - cbn [tree_layout cnt]. lia.
  - cbn [tree_layout sz]. rewrite part_rest by lia. lia.
  - lia.
  - reflexivity.
  - exact Hh.
  - intros m1 H1. cbn beta in H1. set (e0 := blit_list (repeat false nn) (nn - n) (repeat true n)) in *.
    assert (B0 : blit_list (zeros (tree_part n s (nn + 1))) (nn - n) (repeat 1%N n) = map flag e0).
    { unfold e0. rewrite map_blit, !map_repeat', part_rest by lia. reflexivity. }
    rewrite B0 in H1. apply runs_seq.
    apply (run_marks n0 m0 U vl n0 (pv st) nn ltac:(cbn [tree_layout cnt]; lia) (part_rest n s nn ltac:(lia)) (part_rest n s (nn + 1) ltac:(lia)) E11 (nn - n) _ (set_mm st m1) e0 ex _ (conj eq_refl (conj eq_refl H1))).
    + unfold e0. rewrite length_blit_list; rewrite !repeat_length; lia.
    + apply cset_eq.
    + exact F.
    + intros z Le (A & B & Hz0). pose proof (eq_ind_r (fun x => heap n0 m0 vl x (mm z) _) Hz0 B) as Hz. cbn beta in Hz. eapply (h_st1 n0 m0 U vl _ _ z _ (nn + 1) 0); [exact Hz|cbn [tree_layout cnt]; lia|reflexivity| |cbn [tree_layout sz]; rewrite part_rest by lia; lia|].
      * rewrite eq_plus0. cbn [peval P0 ieval tree_layout reg]. rewrite A, E11. reflexivity.
      * intros m2 H2. cbn [deval] in H2. rewrite cset_eq in H2. pose proof (eq_ind _ (fun x => heap n0 m0 vl x m2 _) H2 _ B) as H3. cbn beta in H3. eapply (HQ (set_mm z m2)); [split; [exact A|split; [exact B|exact H3]]|].
        split; [|split].
        -- intros k Hk. change (nN n D) with nn in Hk. rewrite !cset_neq by lia. unfold nd. rewrite T1. rewrite (nth_indep _ [] (zeros s)) by (rewrite repeat_length; auto). rewrite nth_repeat, part_node by exact Hk. reflexivity.
        -- change (nN n D) with nn. rewrite !cset_neq by lia. rewrite T2, map_repeat', part_rest by lia. reflexivity.
        -- change (nN n D) with nn. rewrite cset_eq, T3, map_set. reflexivity.
Qed.
End N.

(** expandSeeds, with its array. *)
Section W.
Variables (U : nat -> nat -> bytes) (HU : locals_ok U) (E : env) (P : paramset) (n : nat).
Notation Es := (with_shake E).
Notation D := (Nat.log2_up n).
Notation nn := (node_count n).
Notation s := (seedSizeBytes P).
Hypothesis Hs0 : 0 < s <= 32.
Hypothesis Hsalt : saltSizeBytes P <= 64.
Hypothesis Hn : 2 <= n.
Hypothesis HB : D < 30.
Variables (st : state) (q : nat -> ptr) (salt : bytes) (rep : nat) (qs qr : ptr).
Hypothesis HN : new_tree n s st q.
Hypothesis E4 : pv st 4 = [qs].
Hypothesis R4 : reads st (tree_parts n s q) qs salt.
Hypothesis L4 : length salt = saltSizeBytes P.
Hypothesis E0 : pv st 0 = [qr].
Hypothesis R0 : reads st (tree_parts n s q) qr round_constant_bytes.
Hypothesis A0 : snd qr mod 8 = 0.
Let n0 := nx st.
Let m0 := mm st.
Notation vl := (tree_layout n s q).

Lemma run_expandSeeds z2 c2 t1 T (Q : state -> Prop) : at_st n0 m0 vl n0 (pv st) c2 z2 -> trel n D c2 t1 -> shape n D s t1 -> expandSeeds Es P t1 salt rep = Ok T ->
  (forall z c, (forall a, pv z a = pv st a) -> nx z = n0 -> heap n0 m0 vl n0 (mm z) c -> trel n D c T -> shape n D s T -> Q z) -> runs U (c_expandSeeds P (num_nodes n) rep) z2 Q.
Proof.
  intros (A2 & B2 & Hz) T2 S1 M HQ. pose proof (eq_ind_r (fun x => heap n0 m0 vl x (mm z2) _) Hz B2) as H2. cbn beta in H2.
  assert (Hc : cnt vl = nn + 2) by reflexivity. pose proof (nt_have _ _ _ _ HN) as E10.
  unfold expandSeeds in M. destruct (lastNonLeaf_ok n D Hn (D_bound n D Hn eq_refl HB) s t1 S1) as (l & Gl & _ & Hl). rewrite Gl in M. cbn [bind] in M.
  apply getParent_parent in Gl. rewrite (sh_N _ _ _ _ S1) in Gl. unfold c_expandSeeds. rewrite (num_nodes_eq n D Hn eq_refl HB), Gl.
  apply (h_loc n0 m0 U vl 12 _ _ z2 c2 _ HU H2). intros b Lb Bb. cbn [ieval] in *. change (2 * MAX_SEED_SIZE_BYTES) with 64 in *.
  pose proof (heap_push n0 m0 vl _ _ c2 b H2 Bb) as H3. rewrite Lb in H3. rewrite B2 in *.
  set (pl := push vl (n0, 0) 64) in *. set (c3 := cset c2 (cnt vl) b) in *. set (pv1 := upd (pv z2) 12 [(n0, 0)]).
  assert (Pr : forall k, k < nn + 2 -> reg pl k = q k /\ sz pl k = tree_part n s k) by (intros k Hk; unfold pl; cbn [push reg sz]; rewrite !upd_neq by lia; split; reflexivity).
  assert (Pu : forall a, a <> 12 -> pv1 a = pv st a) by (intros a Ha; unfold pv1; rewrite upd_neq by exact Ha; rewrite A2; reflexivity).
  assert (R0' : ro n0 m0 pl qr round_constant_bytes) by (apply ro_push; [lia|exact (tree_ro n s st q _ _ R0)]).
  assert (R4' : ro n0 m0 pl qs salt) by (apply ro_push; [lia|exact (tree_ro n s st q _ _ R4)]).
  assert (Sal : short salt) by (unfold short; lia).
  assert (X3 : at_st n0 m0 pl (S n0) pv1 c3 (mkState (iv z2) (dv z2) pv1 (upd (mm z2) n0 b) (S n0) (S (ct z2)))) by (split; [reflexivity|split; [reflexivity|exact H3]]).
  assert (T3 : trel n D c3 t1).
  { destruct T2 as (Ta & Tb & Tc). change (nN n D) with nn in *. unfold c3. rewrite Hc. split; [intros k Hk; change (nN n D) with nn in Hk; rewrite cset_neq by lia; apply Ta, Hk|].
    change (nN n D) with nn. split; rewrite cset_neq by lia; assumption. }
  assert (G1 : cnt pl = nN n D + 3) by (unfold pl; cbn [push cnt tree_layout]; change (nN n D) with nn; lia).
  assert (G2 : forall k, k < nN n D -> sz pl k = s) by (intros k Hk; change (nN n D) with nn in Hk; rewrite (proj2 (Pr k ltac:(lia))); apply part_node, Hk).
  assert (G3 : sz pl (nN n D) = nN n D) by (change (nN n D) with nn; rewrite (proj2 (Pr nn ltac:(lia))); apply part_rest; lia).
  assert (G4 : sz pl (nN n D + 1) = nN n D) by (change (nN n D) with nn; rewrite (proj2 (Pr (nn + 1) ltac:(lia))); apply part_rest; lia).
  assert (G5 : sz pl (nN n D + 2) = 64) by (change (nN n D) with nn; unfold pl; cbn [push sz]; rewrite Hc; apply upd_eq).
  assert (G6 : forall k, k < nN n D -> nth_error (pv1 9) k = Some (reg pl k)) by (intros k Hk; change (nN n D) with nn in Hk; rewrite (proj1 (Pr k ltac:(lia))), Pu by discriminate; apply (nt_nodes _ _ _ _ HN), Hk).
  assert (G7 : pv1 10 = [reg pl (nN n D)]) by (change (nN n D) with nn; rewrite (proj1 (Pr nn ltac:(lia))), Pu by discriminate; exact E10).
  assert (G8 : pv1 11 = [reg pl (nN n D + 1)]) by (change (nN n D) with nn; rewrite (proj1 (Pr (nn + 1) ltac:(lia))), Pu by discriminate; exact (nt_exists _ _ _ _ HN)).
  assert (G9 : pv1 12 = [reg pl (nN n D + 2)]) by (change (nN n D) with nn; unfold pl, pv1; cbn [push reg]; rewrite Hc, !upd_eq; reflexivity).
  assert (G10 : pv1 0 = [qr]) by (rewrite Pu by discriminate; exact E0). assert (G11 : pv1 4 = [qs]) by (rewrite Pu by discriminate; exact E4).
  assert (B4 : bytes_ok salt) by apply R4. assert (L4' : saltSizeBytes P <= length salt) by lia.
  eapply (run_expands n0 m0 U HU pl (S n0) pv1 E P n D) with (t := t1); try eassumption; [lia|].
  intros z4 c4 (A4 & _ & H4) T4 S4. exists c4. split; [exact H4|]. intros m5 H5. apply (HQ _ c4); [|reflexivity|exact H5|exact T4|exact S4].
  intros a. cbn [pv]. destruct (Nat.eq_dec a 12) as [->|Ha]; [rewrite upd_eq, A2; reflexivity|rewrite upd_neq, A4 by exact Ha; apply Pu, Ha].
Qed.
End W.

Section T.
Variables (U : nat -> nat -> bytes) (HU : locals_ok U) (E : env) (HE : env_bytes_ok E) (P : paramset) (n : nat).
Notation Es := (with_shake E).
Notation D := (Nat.log2_up n).
Notation nn := (node_count n).
Notation s := (seedSizeBytes P).
Hypothesis Hs0 : 0 < s <= 32.
Hypothesis Hsalt : saltSizeBytes P <= 64.
Hypothesis Hn : 2 <= n.
Hypothesis HB : D < 30.
Variables (st : state) (q : nat -> ptr) (root salt : bytes) (rep : nat).
Hypothesis HM : seeds_call P n st q root salt.
Let n0 := nx st.
Let m0 := mm st.
Notation vl := (tree_layout n s q).
Let HN := sd_tree _ _ _ _ _ _ HM.


(** All of it. *)
Lemma run_seeds T (Q : state -> Prop) : generateSeeds Es P n root salt rep = Ok T ->
  (forall z c, (forall a, pv z a = pv st a) -> nx z = n0 -> heap n0 m0 vl n0 (mm z) c -> trel n D c T -> shape n D s T -> Q z) -> runs U (c_generateSeeds P n rep) st Q.
Proof.
  intros M HQ. unfold generateSeeds in M. pose proof (createTree_ok n D Hn eq_refl HB s) as K0.
  destruct (createTree n s) as [t0| | |] eqn:M0; cbn [ok] in K0; try contradiction. destruct K0 as [H0 _]. cbn [bind] in M.
  destruct (sd_root _ _ _ _ _ _ HM) as (qo & E3 & R3 & L3). destruct (sd_salt _ _ _ _ _ _ HM) as (qs & E4 & R4 & L4). destruct (sd_rc _ _ _ _ _ _ HM) as (qr & E0 & R0 & A0).
  rewrite slice0_ok in M by exact L3. cbn [bind] in M.
  assert (N0 : 0 < nN n D) by (unfold nN; lia). assert (Lf : length (firstn s root) = s) by (rewrite firstn_length; lia).
  assert (Hc : cnt vl = nn + 2) by reflexivity. pose proof (nt_have _ _ _ _ HN) as E10.
  unfold c_generateSeeds. apply runs_seq. apply (run_create U n s Hn HB st q HN t0 _ M0 H0). intros z c X T0. pose proof X as (A & B & Hh0). pose proof (eq_ind_r (fun x => heap n0 m0 vl x (mm z) _) Hh0 B) as Hh. cbn beta in Hh.
  apply runs_seq. apply (h_memcpy_part n0 m0 U vl _ _ _ z c 0 qo root); cbn [ieval].
  - cbn [peval ieval]. rewrite A. apply (nt_nodes _ _ _ _ HN). exact N0.
  - cbn [peval P0 ieval]. rewrite A, E3. reflexivity.
  - lia.
  - cbn [tree_layout reg]. intros Heq. destruct (tree_ro n s st q _ _ R3) as [_ Dj]. specialize (Dj 0 ltac:(lia)). cbn [tree_layout reg sz] in Dj. rewrite part_node in Dj by exact N0. rewrite <- Heq in Dj. unfold disj in Dj. lia.
  - left. exact (tree_ro n s st q _ _ R3).
  - apply R3.
  - cbn [tree_layout sz]. rewrite part_node by exact N0. lia.
  - exact L3.
  - lia.
  - exact Hh.
  - intros m1 H1. rewrite CodeSignProofs.blit_list_all in H1 by (rewrite Lf, (heap_len _ _ _ _ _ _ Hh 0) by lia; apply (part_node n s), N0).
    rewrite (put_node_eq s n D t0 0 _ H0 N0 Lf) in M. cbn [bind] in M. set (t1 := set_node _ _ _) in *.
    assert (S1 : shape n D s t1) by (apply (put_shape s n D t0 0 (firstn s root) t1 H0 N0 Lf); apply (put_node_eq s n D t0 0 _ H0 N0 Lf)).
    apply runs_seq. eapply (h_st1 n0 m0 U vl _ _ (set_mm z m1) _ nn 0); [exact H1|lia|reflexivity| |cbn [tree_layout sz]; rewrite part_rest by lia; exact N0|].
    { rewrite eq_plus0. cbn [peval P0 ieval tree_layout reg set_mm iv pv]. rewrite A, E10. reflexivity. }
    intros m2 H2. cbn [deval set_mm nx] in H2. set (c2 := cset _ nn _) in H2.
    assert (T2 : trel n D c2 t1).
    { pose proof (trel_put s n D c t0 0 (firstn s root) H0 N0 T0) as K. unfold c2. change (1 mod 256)%N with 1%N. rewrite (cset_neq c 0 (firstn s root) nn) by (change nn with (nN n D); lia). exact K. }
    set (z2 := set_mm (set_mm z m1) m2).
    assert (X2 : at_st n0 m0 vl n0 (pv st) c2 z2) by (split; [exact A|split; [exact B|exact (eq_ind _ (fun x => heap n0 m0 vl x m2 _) H2 _ B)]]).
    apply (run_expandSeeds U HU E P n Hs0 Hsalt Hn HB st q salt rep qs qr HN E4 R4 L4 E0 R0 A0 z2 c2 t1 T Q X2 T2 S1 M HQ).
Qed.
End T.
