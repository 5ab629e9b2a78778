(** One round of ZKB++ verification on memory with pointers. *)

From Coq Require Import List NArith Arith Bool Lia ZifyBool ZifyNat ZifyN.
From Verif Require Import Base Params Env Spec LowMC Picnic1 MiniC CodeLowMC CodeZkb CodeKeccak CodeP3 CodeSpec HashSpec CodeKeccakSpec CodeZkbSpec CodeVerifySpec CodeHashUses CodeSign CodeVerRound CodeVerRoundSpec
  ApiSpec BaseFacts ParamFacts LowMCFacts SigSpec ZkbMpc Zkb ZkbRound ZkbSign HashProofs
  MiniCFacts CodeRules CodeLowMCProofs CodeHeap CodeZkbProofs CodeZkbBits CodeZkbSub CodeZkbMpc CodeZkbRun CodeZkbVerRun CodeP3Proofs CodeP3Lin CodeXor CodeHashUsesTop CodeSignRules CodeSignProofs.
From Verif Require CodeHashUsesSpec.
Import ListNotations.
Local Open Scope c_scope.

Section S.
Variables (U : nat -> nat -> bytes) (HU : locals_ok U) (E : env) (P : paramset) (HP1 : wfP1 P) (HS : small P) (HE0 : env_bytes_ok E) (HC : constants_ok E P).
Variables (st : state) (q : nat -> ptr) (ch : nat) (pr : proof) (salt pub pt : bytes).
Hypothesis HM : round_call P E st q ch pr salt pub pt.
Notation Es := (with_shake E).
Let HE : env_bytes_ok Es := shake_env E HE0.
Let HCs : constants_ok Es P := HC.
Let HP : wfP P := w1_wfP P HP1.
Let W := stateSizeWords P.
Let sB := stateSizeBytes P.
Let aB := andSizeBytes P.
Let dB := digestSizeBytes P.
Let n0 := nx st.
Let m0 := mm st.
Let vl : layout := mkLayout (ver_count P) q (ver_size P).
Notation hp := (heap n0 m0 vl n0).
Notation ro := (ro n0 m0 vl).
Notation at_ := (at_ n0 m0 vl).

Lemma lt13 i : i < 13 -> i < cnt vl.
Proof. intros H. cbn [vl cnt]. unfold ver_count. destruct (is_UR _); lia. Qed.
Lemma lt16 i : is_UR (transf P) = true -> i < 16 -> i < cnt vl.
Proof. intros Hu H. cbn [vl cnt]. unfold ver_count. rewrite Hu. lia. Qed.
Lemma vreads_ro p l : reads st (round_writes P q) p l -> ro p l.
Proof. intros (A & _ & B). split; [exact A|]. intros k Hk. apply B. unfold round_writes. apply in_map_iff. exists k. split; [reflexivity|]. apply in_seq. cbn [vl cnt] in Hk. lia. Qed.
Lemma given_ro a l : given P st q a l -> exists p, pv st a = [p] /\ ro p l /\ bytes_ok l.
Proof. intros (p & A & B). exists p. split; [exact A|]. split; [apply vreads_ro, B|apply B]. Qed.
Lemma vsB_pos : 0 < sB /\ 0 < aB.
Proof.
  pose proof (wf_sB P HP) as A. pose proof (wf_aB P HP) as B. pose proof (wf_n P HP). pose proof (wf_m0 P HP). pose proof (wf_r P HP). unfold sB, aB. rewrite A, B.
  pose proof (numBytes_spec (stateSizeBits P)). pose proof (numBytes_spec (3 * numSboxes P * numRounds P)). assert (0 < 3 * numSboxes P * numRounds P) by nia. lia.
Qed.
Notation sd := (proof_seed pr).
Notation pty := (opened ch).

Lemma ro_neq m c p l i : hp m c -> ro p l -> i < cnt vl -> 0 < sz vl i -> 0 < length l -> p <> reg vl i.
Proof. intros H Hr Hi Hs Hl ->. pose proof (proj2 Hr i Hi) as D. unfold disj in D. lia. Qed.
Lemma reg_neq m c i j : hp m c -> i < cnt vl -> j < cnt vl -> i <> j -> 0 < sz vl i -> 0 < sz vl j -> reg vl i <> reg vl j.
Proof. intros H Hi Hj Hne Si Sj Eq. pose proof (heap_disj _ _ _ _ _ _ _ _ H Hi Hj Hne) as D. rewrite Eq in D. unfold disj in D. lia. Qed.
Lemma pty_lt e : pty e < 3.
Proof. unfold opened. apply Nat.mod_upper_bound. lia. Qed.

(** ** Hash functions *)
Section Hash.
Variables (qr : ptr) (Rr : ro qr round_constant_bytes) (Ar : snd qr mod 8 = 0) (E9 : pv st 9 = [qr]).
Variables (qd : nat -> ptr) (E10 : pv st 10 = for2 qd) (Rd : forall e, e < 2 -> reads st (round_writes P q) (qd e) (sd e) /\ length (sd e) = seedSizeBytes P).
Definition vst (l : list (list ptr)) (m : memory) (u : nat) : state := mkState (args 0 []) (args 0%N []) (args [] l) m n0 u.

Lemma v_room (l : list (list ptr)) m u c kk n : hp m c -> kk < cnt vl -> n <= sz vl kk -> nth 5 l [] = [q kk] ->
  CodeHashUsesSpec.room_at (vst l m u) qr 5 0 (q kk) n.
Proof.
  intros H Hkk Hn Hl. pose proof (heap_len _ _ _ _ _ _ H kk Hkk) as Lk. unfold CodeHashUsesSpec.room_at, vst. cbn [pv nx mm]. unfold args. rewrite Hl. split; [reflexivity|]. split.
  - exists (firstn n (c kk)). split; [rewrite firstn_length; lia|]. apply pts_firstn, (heap_pts _ _ _ _ _ _ H kk Hkk).
  - apply (disj_sub _ _ _ _ _ _ (proj2 Rr kk Hkk)); [exact Hn|]. reflexivity.
Qed.
Lemma v_consts (l : list (list ptr)) m u c : hp m c -> nth 0 l [] = [qr] -> CodeHashUsesSpec.constants (vst l m u) qr.
Proof. intros H B. unfold CodeHashUsesSpec.constants, vst. cbn [pv nx mm]. split; [exact B|]. split; [exact Ar|]. exact (heap_ro _ _ _ _ _ _ _ _ H Rr). Qed.
Lemma v_seed (l : list (list ptr)) m u c e : hp m c -> e < 2 -> nth 3 l [] = [qd e] -> CodeHashUsesSpec.holds (vst l m u) 3 0 (seedSizeBytes P) (sd e).
Proof.
  intros H He Hl. destruct (Rd e He) as [Re Le]. unfold CodeHashUsesSpec.holds, vst. cbn [pv nx mm]. unfold args. rewrite Hl. eexists. split; [reflexivity|]. split; [apply (heap_ro _ _ _ _ _ _ _ _ H), vreads_ro, Re|].
  split; [apply Re|]. split; [lia|]. apply (small_short P); [exact HS|lia].
Qed.
Lemma v_off (l : list (list ptr)) m u c kk n i k2 n2 : hp m c -> kk < cnt vl -> n <= sz vl kk -> k2 < 9 -> 3 <= k2 -> kk <> k2 -> n2 <= sz vl k2 ->
  nth_error (nth 4 l []) i = Some (q k2) -> CodeHashUsesSpec.holds_off (q kk) n (vst l m u) 4 i n2 (c k2).
Proof.
  intros H Hkk Hn Hk2 Hk3 Hne Hn2 Hl. assert (Hc : k2 < cnt vl) by (apply lt13; lia). unfold CodeHashUsesSpec.holds_off, vst. cbn [pv nx mm]. unfold args. exists (q k2). split; [exact Hl|].
  split; [apply (heap_pts _ _ _ _ _ _ H k2 Hc)|]. split; [apply (heap_ok _ _ _ _ _ _ H k2 Hc)|]. rewrite (heap_len _ _ _ _ _ _ H k2 Hc).
  split; [exact Hn2|]. split.
  - apply (small_short P); [exact HS|]. rewrite (heap_len _ _ _ _ _ _ H k2 Hc). cbn [vl sz]. do 9 (destruct k2 as [|k2]; [cbn [ver_size]; lia|]). lia.
  - apply (disj_sub _ _ _ _ _ _ (heap_disj _ _ _ _ _ _ _ _ H Hkk Hc Hne)); assumption.
Qed.

Lemma h_vtape i j e p kk n iv1 dv1 m u c (Q : state -> Prop) : e < 2 -> peval iv1 (pv st) p = Some (q kk) -> kk < cnt vl -> n <= sz vl kk -> n = party_len P j ->
  hp m c -> (forall m' u', hp m' (cset c kk (blit_list (c kk) 0 (party_bytes Es P (sd e) salt i j))) -> Q (mkState (upd iv1 2 1) dv1 (pv st) m' n0 u')) ->
  runs U (call_vtape P i j e p n) (mkState iv1 dv1 (pv st) m n0 u) Q.
Proof.
  intros He Ep Hkk Hn Hl H HQ. pose proof (w1_tape P HP1) as Wt. destruct (rc_salt _ _ _ _ _ _ _ _ _ HM) as ((qa & E11 & Ra) & La). destruct (Rd e He) as [_ Ls].
  assert (Hd : digestSizeBytes P <= n) by (rewrite Hl; unfold party_len; destruct (j <? 2); lia).
  set (l := [[qr]; []; []; [qd e]; [qa]; [q kk]] : list (list ptr)).
  unfold call_vtape. apply (h_leaves n0 m0 U vl _ _ _ l _ c kk (party_bytes Es P (sd e) salt i j)); cbn [iv dv pv mm nx ct].
  - unfold l. cbn [pargevals pargeval pevals peval ieval]. rewrite Ep, E9, E10, E11. cbn [nth_error]. rewrite for2_nth by exact He. reflexivity.
  - change (mkState (args 0 []) (args 0%N []) (args [] l) m n0 u) with (vst l m u).
    destruct (createRandomTape_code U HU E P (vst l m u) qr (q kk) (sd e) salt i j n (zeros n) Hd) as (_ & z' & t & R1 & R2 & R3).
    + apply (v_consts l m u c); auto.
    + apply (v_room l m u c); auto.
    + apply (v_seed l m u c); auto.
    + unfold CodeHashUsesSpec.holds_off, vst. cbn [pv nx mm]. exists qa. split; [reflexivity|]. split; [apply (heap_ro _ _ _ _ _ _ _ _ H), vreads_ro, Ra|].
      split; [apply Ra|]. split; [lia|]. split; [apply (small_short P); [exact HS|lia]|].
      apply (disj_sub _ _ _ _ _ _ (proj2 (vreads_ro _ _ Ra) kk Hkk)); [exact Hn|lia].
    + rewrite length_zeros. lia.
    + exists z', t. split; [exact R1|]. split.
      * replace (party_bytes Es P (sd e) salt i j) with (shake (use_shake128 P) (shake (use_shake128 P) (2%N :: firstn (seedSizeBytes P) (sd e)) (digestSizeBytes P) ++ firstn (saltSizeBytes P) salt ++ intLE i ++ intLE j ++ intLE n) n); [exact R2|].
        unfold party_bytes, hash. rewrite <- Hl. cbn [xof with_shake prefix_bytes HASH_PREFIX_NONE HASH_PREFIX_2 concat app]. rewrite !app_nil_r. rewrite (firstn_all2 (sd e)), (firstn_all2 salt) by lia. reflexivity.
      * intros m' u' Hm'. cbn [copy_back]. rewrite R3. apply HQ, Hm'.
  - exact Hkk.
  - rewrite (length_party_bytes Es P HE). lia.
  - apply (hash_bytes Es P HE).
  - exact H.
Qed.

Definition vv (c : nat -> bytes) (e : nat) : view := mkView (c (3 + e)) (c (5 + e)) (c (7 + e)).
Lemma e2 e : e < 2 -> e = 0 \/ e = 1.
Proof. lia. Qed.
Lemma v_args a e (f : nat -> ptr) : pv st a = for2 f -> e < 2 -> nth_error (pv st a) e = Some (f e).
Proof. intros -> He. apply for2_nth, He. Qed.

Lemma h_vcommit e iv1 dv1 m u c (Q : state -> Prop) : e < 2 -> hp m c ->
  (forall m' u', hp m' (cset c (9 + pty e) (commit_val Es P (sd e) (vv c e))) -> Q (mkState iv1 dv1 (pv st) m' n0 u')) ->
  runs U (call_vCommit P ch e) (mkState iv1 dv1 (pv st) m n0 u) Q.
Proof.
  intros He H HQ. pose proof (pty_lt e) as Hj. set (j := pty e) in *. destruct (Rd e He) as [_ Ls].
  destruct (rc_bufs _ _ _ _ _ _ _ _ _ HM) as (_ & B1 & B2 & B3 & _ & B14 & _).
  assert (K9 : 9 + j < cnt vl) by (apply lt13; lia). assert (S9 : sz vl (9 + j) = dB) by (destruct (lt3_cases j Hj) as [->|[->| ->]]; reflexivity).
  assert (S3 : sz vl (3 + e) = sB) by (destruct (e2 e He) as [->| ->]; reflexivity). assert (S5 : sz vl (5 + e) = aB) by (destruct (e2 e He) as [->| ->]; reflexivity).
  assert (S7 : sz vl (7 + e) = sB) by (destruct (e2 e He) as [->| ->]; reflexivity).
  assert (Ll : forall k, k < 13 -> length (c k) = sz vl k) by (intros k Hk; apply (heap_len _ _ _ _ _ _ H k), lt13, Hk).
  pose proof (Ll (9 + j) ltac:(lia)) as Lc. pose proof (Ll (3 + e) ltac:(lia)) as L0. pose proof (Ll (5 + e) ltac:(lia)) as L3. pose proof (Ll (7 + e) ltac:(lia)) as L6. rewrite S9 in Lc. rewrite S3 in L0. rewrite S5 in L3. rewrite S7 in L6.
  set (l := [[qr]; []; []; [qd e]; [q (3 + e); q (5 + e); q (7 + e)]; [q (9 + j)]] : list (list ptr)).
  pose proof (hash_len Es P HE) as Hl. pose proof (hash_bytes Es P HE) as Hb.
  unfold call_vCommit. fold j. apply (h_leaves n0 m0 U vl _ _ _ l _ c (9 + j) (commit_val Es P (sd e) (vv c e))); cbn [iv dv pv mm nx ct].
  - unfold l. cbn [pargevals pargeval pevals peval ieval]. rewrite E9, E10, B1, B2, B3, B14, for2_nth by exact He.
    destruct (e2 e He) as [->| ->], (lt3_cases j Hj) as [->|[->| ->]]; reflexivity.
  - change (mkState (args 0 []) (args 0%N []) (args [] l) m n0 u) with (vst l m u).
    assert (Off : forall i x n2, 3 <= x < 9 -> n2 = sz vl x -> nth_error [q (3 + e); q (5 + e); q (7 + e)] i = Some (q x) ->
      CodeHashUsesSpec.holds_off (q (9 + j)) (digestSizeBytes P) (vst l m u) 4 i n2 (c x)).
    { intros i x n2 Hx -> Hn. apply (v_off l m u c (9 + j) dB); auto; try lia. }
    destruct (Commit_code U HU E P (vst l m u) qr (q (9 + j)) (sd e) (vv c e)) as (_ & z' & t & R1 & R2).
    + apply (v_consts l m u c); auto.
    + apply (v_room l m u c); auto. rewrite S9. auto.
    + apply (v_seed l m u c); auto.
    + apply (Off 0 (3 + e)); [lia|auto|reflexivity].
    + apply (Off 1 (5 + e)); [lia|auto|reflexivity].
    + apply (Off 2 (7 + e)); [lia|auto|reflexivity].
    + exists z', t. split; [exact R1|]. split.
      * cbn [vv v_inputShare v_communicatedBits v_outputShare] in R2. unfold commit_val, hash. cbn [xof with_shake prefix_bytes HASH_PREFIX_0 HASH_PREFIX_4 concat app vv v_inputShare v_communicatedBits v_outputShare].
        rewrite !app_nil_r. rewrite !firstn_all2 in R2 by (cbn [Nat.add] in *; lia). exact R2.
      * intros m' u' Hm'. cbn [copy_back]. apply (HQ m' u'). rewrite blit_list_all in Hm'; [exact Hm'|]. unfold commit_val. rewrite Hl. exact Lc.
  - exact K9.
  - unfold commit_val. rewrite Hl, S9. auto.
  - apply Hb.
  - exact H.
Qed.

Lemma h_vG e iv1 dv1 m u c (Q : state -> Prop) : is_UR (transf P) = true -> e < 2 -> hp m c ->
  (forall m' u', hp m' (cset c (13 + pty e) (blit_list (c (13 + pty e)) 0 (G_val Es P (pty e) (sd e) (vv c e)))) -> Q (mkState iv1 dv1 (pv st) m' n0 u')) ->
  runs U (call_vG P ch e) (mkState iv1 dv1 (pv st) m n0 u) Q.
Proof.
  intros Hu He H HQ. pose proof (pty_lt e) as Hj. set (j := pty e) in *. destruct (Rd e He) as [_ Ls]. pose proof (w1_tape P HP1) as Wt. pose proof (w1_Gw P HP1 Hu) as Wg.
  destruct (rc_bufs _ _ _ _ _ _ _ _ _ HM) as (_ & B1 & B2 & B3 & _ & _ & B15 & _). specialize (B15 Hu).
  assert (K9 : 13 + j < cnt vl) by (apply lt16; [exact Hu|lia]). assert (S9 : sz vl (13 + j) = UnruhGWithInputBytes P) by (destruct (lt3_cases j Hj) as [->|[->| ->]]; reflexivity).
  assert (S3 : sz vl (3 + e) = sB) by (destruct (e2 e He) as [->| ->]; reflexivity). assert (S5 : sz vl (5 + e) = aB) by (destruct (e2 e He) as [->| ->]; reflexivity).
  assert (Ll : forall k, k < 13 -> length (c k) = sz vl k) by (intros k Hk; apply (heap_len _ _ _ _ _ _ H k), lt13, Hk).
  pose proof (Ll (3 + e) ltac:(lia)) as L0. pose proof (Ll (5 + e) ltac:(lia)) as L3. rewrite S3 in L0. rewrite S5 in L3.
  set (l := [[qr]; []; []; [qd e]; [q (3 + e); q (5 + e); q (7 + e)]; [q (13 + j)]] : list (list ptr)).
  pose proof (hash_len Es P HE) as Hl. pose proof (hash_bytes Es P HE) as Hb.
  assert (Gd : digestSizeBytes P <= G_bytes P j) by (unfold G_bytes; destruct (j =? 2); lia).
  assert (Gs : G_bytes P j <= sz vl (13 + j)) by (rewrite S9, Wg; unfold G_bytes; destruct (j =? 2); lia).
  unfold call_vG. fold j. apply (h_leaves n0 m0 U vl _ _ _ l _ c (13 + j) (G_val Es P j (sd e) (vv c e))); cbn [iv dv pv mm nx ct].
  - unfold l. cbn [pargevals pargeval pevals peval ieval]. rewrite E9, E10, B1, B2, B3, B15, for2_nth by exact He.
    destruct (e2 e He) as [->| ->], (lt3_cases j Hj) as [->|[->| ->]]; reflexivity.
  - change (mkState (args 0 []) (args 0%N []) (args [] l) m n0 u) with (vst l m u).
    assert (Off : forall i x n2, 3 <= x < 9 -> n2 = sz vl x -> nth_error [q (3 + e); q (5 + e); q (7 + e)] i = Some (q x) ->
      CodeHashUsesSpec.holds_off (q (13 + j)) (G_bytes P j) (vst l m u) 4 i n2 (c x)).
    { intros i x n2 Hx -> Hn. apply (v_off l m u c (13 + j) (G_bytes P j)); auto; try lia. }
    destruct (G_code U HU E P (vst l m u) qr (q (13 + j)) j (sd e) (vv c e) (zeros (G_bytes P j)) Gd) as (_ & z' & t & R1 & R2).
    + apply (v_consts l m u c); auto.
    + apply (v_room l m u c); auto.
    + apply (v_seed l m u c); auto.
    + intros _. apply (Off 0 (3 + e)); [lia|auto|reflexivity].
    + apply (Off 1 (5 + e)); [lia|auto|reflexivity].
    + rewrite length_zeros. auto.
    + exists z', t. split; [exact R1|]. split.
      * cbn [vv v_inputShare v_communicatedBits v_outputShare] in R2. unfold G_val, hash. cbn [xof with_shake prefix_bytes HASH_PREFIX_NONE HASH_PREFIX_5 concat app vv v_inputShare v_communicatedBits v_outputShare].
        rewrite !app_nil_r. rewrite !firstn_all2 in R2 by (cbn [Nat.add] in *; lia). exact R2.
      * intros m' u' Hm'. cbn [copy_back]. apply (HQ m' u'), Hm'.
  - exact K9.
  - unfold G_val. rewrite Hl. exact Gs.
  - apply Hb.
  - exact H.
Qed.

(** ** Random tapes and input shares of the opened views *)
Section Round.
Variable i : nat.
Notation tpe e := (party_tape Es P (sd e) salt i (pty e)).
Definition raw (e : nat) : bytes := if pty e <? 2 then firstn sB (party_bytes Es P (sd e) salt i (pty e)) else p_inputShare pr.
Definition drawn (e : nat) (c : nat -> bytes) : Prop :=
  if pty e <? 2 then firstn (sB + aB) (c 0) = party_bytes Es P (sd e) salt i (pty e) else firstn aB (c (1 + e)) = tpe e.

Lemma h_c_vtape e iv1 dv1 m u c (Q : state -> Prop) : e < 2 -> hp m c ->
  (forall m' u' c', hp m' c' -> drawn e c' -> (forall k, k <> 0 -> k <> 1 + e -> c' k = c k) -> Q (mkState (upd iv1 2 1) dv1 (pv st) m' n0 u')) ->
  runs U (c_vtape P i ch e) (mkState iv1 dv1 (pv st) m n0 u) Q.
Proof.
  intros He H HQ. destruct (rc_bufs _ _ _ _ _ _ _ _ _ HM) as (B0 & _ & _ & _ & B5 & _). pose proof (length_party_bytes Es P HE (sd e) salt i (pty e)) as Lb. unfold party_len in Lb. fold sB aB in Lb.
  unfold c_vtape, drawn in *. fold sB aB. destruct (pty e <? 2) eqn:Ej.
  - apply (h_vtape i (pty e) e (P0 5) 0 _ _ _ _ _ c); auto.
    + csimpl. rewrite B5. reflexivity.
    + apply lt13. lia.
    + cbn [vl sz ver_size]. fold sB aB. lia.
    + unfold party_len. rewrite Ej. reflexivity.
    + intros m' u' Hm. apply (HQ m' u' _ Hm).
      * rewrite cset_eq. apply firstn_blit0. symmetry. exact Lb.
      * intros k K0 K1. apply cset_neq, K0.
  - assert (E2 : pty e = 2) by (pose proof (pty_lt e); lia). rewrite E2 in *.
    apply (h_vtape i 2 e (PV 0 (IC e)) (1 + e) _ _ _ _ _ c); auto.
    + csimpl. rewrite B0. destruct (e2 e He) as [->| ->]; reflexivity.
    + apply lt13. lia.
    + destruct (e2 e He) as [->| ->]; cbn [vl sz ver_size Nat.add]; fold aB; lia.
    + intros m' u' Hm. apply (HQ m' u' _ Hm).
      * rewrite cset_eq. change (party_tape Es P (sd e) salt i 2) with (party_bytes Es P (sd e) salt i 2). apply firstn_blit0. symmetry. exact Lb.
      * intros k K0 K1. apply cset_neq, K1.
Qed.

Lemma h_c_vparts e iv1 dv1 m u c (Q : state -> Prop) : e < 2 -> hp m c -> drawn e c ->
  (forall m' u' c', hp m' c' -> c' (3 + e) = raw e -> firstn aB (c' (1 + e)) = tpe e -> (forall k, k <> 3 + e -> k <> 1 + e -> c' k = c k) ->
     Q (mkState iv1 dv1 (pv st) m' n0 u')) ->
  runs U (c_vparts P ch e) (mkState iv1 dv1 (pv st) m n0 u) Q.
Proof.
  intros He H Hd HQ. destruct (rc_bufs _ _ _ _ _ _ _ _ _ HM) as (B0 & B1 & _ & _ & B5 & _). pose proof vsB_pos as [Ps Pa].
  assert (S3 : sz vl (3 + e) = sB) by (destruct (e2 e He) as [->| ->]; reflexivity). assert (S1 : sz vl (1 + e) = 2 * aB) by (destruct (e2 e He) as [->| ->]; reflexivity).
  assert (K3 : 3 + e < cnt vl) by (apply lt13; lia). assert (K1 : 1 + e < cnt vl) by (apply lt13; lia). assert (K0 : 0 < cnt vl) by (apply lt13; lia).
  assert (Z0 : sz vl 0 = Nat.max (6 * sB) (sB + aB)) by reflexivity.
  assert (P1 : peval iv1 (pv st) (PV 1 (IC e)) = Some (q (3 + e))) by (csimpl; rewrite B1; destruct (e2 e He) as [->| ->]; reflexivity).
  unfold c_vparts, drawn, raw in *. fold sB aB. destruct (pty e <? 2) eqn:Ej.
  - apply runs_seq. eapply (h_memcpy n0 m0 U vl _ _ (IC sB) _ c (3 + e) 0); csimpl; [exact P1|rewrite B5; reflexivity|exact K3|exact K0|lia|exact S3|rewrite Z0; lia|exact Ps|exact H|].
    intros m2 H2. unfold set_mm. cbn [iv dv pv mm nx ct]. set (c2 := cset c (3 + e) _) in H2.
    assert (C0 : c2 0 = c 0) by (unfold c2; apply cset_neq; lia).
    eapply (h_memcpy_off n0 m0 U vl _ _ (IC aB) _ c2 (1 + e) 0 sB); csimpl; [rewrite B0; destruct (e2 e He) as [->| ->]; reflexivity|rewrite B5; cbn [nth_error]; change (reg vl 0) with (q 0); destruct (q 0); reflexivity|exact K1|exact K0|lia|rewrite S1; lia|rewrite Z0; lia|exact Pa|exact H2|].
    intros m4 H4. unfold set_mm. cbn [iv dv pv mm nx ct]. apply (HQ m4 u _ H4).
    + rewrite cset_neq by lia. unfold c2. rewrite cset_eq, <- Hd, firstn_firstn. f_equal. lia.
    + rewrite cset_eq, C0. assert (X : firstn aB (skipn sB (c 0)) = tpe e).
      { apply (skipn_tape Es P (sd e) salt i (pty e)); [lia|]. unfold party_len. rewrite Ej. exact Hd. }
      rewrite X. apply firstn_blit0. symmetry. apply (length_party_tape Es P HE).
    + intros k A B. rewrite cset_neq by exact B. unfold c2. apply cset_neq, A.
  - destruct (rc_input _ _ _ _ _ _ _ _ _ HM) as [Gi Li]. destruct (given_ro _ _ Gi) as (qi & E12 & Ri & Bi). fold sB in Li.
    eapply (h_memcpy_part n0 m0 U vl _ _ (IC sB) _ c (3 + e) qi (p_inputShare pr)); csimpl; [exact P1|rewrite E12; reflexivity|exact K3| |left; exact Ri|exact Bi|rewrite S3; auto|lia|exact Ps|exact H|].
    { apply (ro_neq _ _ _ _ _ H Ri); [exact K3|rewrite S3; exact Ps|lia]. }
    intros m4 H4. unfold set_mm. cbn [iv dv pv mm nx ct]. rewrite firstn_all2 in H4 by lia.
    rewrite blit_list_all in H4 by (rewrite (heap_len _ _ _ _ _ _ H _ K3), S3; symmetry; exact Li).
    apply (HQ m4 u _ H4).
    + apply cset_eq.
    + rewrite cset_neq by lia. exact Hd.
    + intros k A _. apply cset_neq, A.
Qed.

(** ** The computation *)
Definition ix (x : nat) : nat := match x with 0 => 0 | 1 => 5 | 2 => 7 | _ => 8 end.
Lemma ix_lt x : ix x < cnt vl.
Proof. apply lt13. destruct x as [|[|[|x]]]; cbn [ix]; lia. Qed.
Let vs0 (c : nat -> bytes) (j : nat) : view := mkView (c (3 + j)) (c (5 + j)) (c (7 + j)).
Let ws (c : nat -> bytes) := ver_writes P (vs0 c 0) (q 0) (q 5) (fun j => q (7 + j)).
Lemma ws_nth m c x p l : hp m c -> nth_error (ws c) x = Some (p, l) -> x < 4 /\ p = q (ix x) /\ l <= sz vl (ix x).
Proof.
  intros Hh H. assert (Hx : x < 4) by (apply (nth_error_Some (ws c)); congruence). split; [exact Hx|].
  pose proof (w1_tmpv P HP1) as Wt. pose proof (heap_len _ _ _ _ _ _ Hh 5 (lt13 5 ltac:(lia))) as L5.
  unfold ws, ver_writes in H. cbn [vs0 v_communicatedBits Nat.add] in H. rewrite L5 in H. cbn [vl sz ver_size] in *.
  do 4 (destruct x as [|x]; [cbn [nth_error] in H; injection H as <- <-; split; [reflexivity|cbn [ix ver_size]; lia]|]). lia.
Qed.
Lemma ws_in m c p l : hp m c -> In (p, l) (ws c) -> exists x, x < 4 /\ p = q (ix x) /\ l <= sz vl (ix x).
Proof. intros Hh H. apply In_nth_error in H. destruct H as (x & H). exists x. apply (ws_nth _ _ _ _ _ Hh H). Qed.
Lemma ws_ro y c m p l : hp m c -> nx y = n0 -> mm y = m -> ro p l -> bytes_ok l -> reads y (ws c) p l.
Proof.
  intros H En Em Hr Hb. unfold reads. rewrite En, Em. split; [exact (heap_ro _ _ _ _ _ _ _ _ H Hr)|]. split; [exact Hb|].
  intros p' l' Hp. destruct (ws_in _ _ _ _ H Hp) as (x & Hx & -> & Hl). apply (disj_sub _ _ _ _ _ _ (proj2 Hr _ (ix_lt x))); auto.
Qed.
Lemma ws_reg y c m k : hp m c -> nx y = n0 -> mm y = m -> k < cnt vl -> (forall x, x < 4 -> ix x <> k) -> reads y (ws c) (q k) (c k).
Proof.
  intros H En Em Hi Hne. unfold reads. rewrite En, Em. split; [apply (heap_pts _ _ _ _ _ _ H k Hi)|]. split; [apply (heap_ok _ _ _ _ _ _ H k Hi)|].
  intros p' l' Hp. destruct (ws_in _ _ _ _ H Hp) as (x & Hx & -> & Hl). apply (disj_sub _ _ _ _ _ _ (heap_disj _ _ _ _ _ _ _ _ H (ix_lt x) Hi (Hne x Hx))); [exact Hl|].
  rewrite (heap_len _ _ _ _ _ _ H k Hi). auto.
Qed.

Lemma h_vmpc t1 t2 iv1 dv1 m u c (Q : state -> Prop) : iv1 0 = 0 -> iv1 1 = ch -> hp m c ->
  firstn aB (c 1) = t1 -> firstn aB (c 2) = t2 -> length t1 = aB -> length t2 = aB ->
  c 5 = zeros aB -> c 7 = zeros sB -> c 8 = zeros sB ->
  let V := ver_of Es P ch (c 3) (c 4) t1 t2 (c 6) pt in
  (forall iv' m' u' c', (forall x, x <> 0 -> iv' x = iv1 x) -> hp m' c' -> c' 5 = v_communicatedBits (fst V) -> c' 7 = v_outputShare (fst V) -> c' 8 = v_outputShare (snd V) ->
     (forall k, k <> 0 -> k <> 5 -> k <> 7 -> k <> 8 -> c' k = c k) -> Q (mkState iv' dv1 (pv st) m' n0 u')) ->
  runs U (c_mpc_LowMC_verify P 0 1 2 3 (PV 4 (IC 0)) (PV 5 (IC 0)) 6 7 8 0 (IV 1)) (mkState iv1 dv1 (pv st) m n0 u) Q.
Proof.
  intros I0 I1 H T1 T2 Lt1 Lt2 Z5 Z7 Z8 V HQ. set (y := mkState iv1 dv1 (pv st) m n0 u). pose proof (w1_tmpv P HP1) as Wt. fold W sB aB in Wt.
  pose proof (wf_aB P HP) as WaB. pose proof (numBytes_spec (3 * numSboxes P * numRounds P)) as NB. rewrite <- WaB in NB. fold aB in NB.
  pose proof (wf_sB P HP) as WsB. pose proof (numBytes_spec (stateSizeBits P)) as NS. rewrite <- WsB in NS. fold sB in NS.
  destruct (rc_align _ _ _ _ _ _ _ _ _ HM) as (A0 & A3 & A4 & _). destruct (rc_pt _ _ _ _ _ _ _ _ _ HM) as (qp & E4 & Rp & Ap & Lp).
  destruct (rc_bufs _ _ _ _ _ _ _ _ _ HM) as (B0 & B1 & B2 & B3 & B5 & _).
  assert (Hc : forall k, k < 13 -> k < cnt vl) by (intros k Hk; apply lt13, Hk).
  assert (Ll : forall k, k < 13 -> length (c k) = ver_size P k) by (intros k Hk; apply (heap_len _ _ _ _ _ _ H k), Hc, Hk).
  assert (Lb : forall k, k < 13 -> bytes_ok (c k)) by (intros k Hk; apply (heap_ok _ _ _ _ _ _ H k), Hc, Hk).
  assert (Li : forall k, k = 3 \/ k = 4 -> in_wf P (c k)).
  { intros k Hk. split; [rewrite Ll by lia; destruct Hk as [->| ->]; reflexivity|apply Lb; lia]. }
  pose proof (Ll 6 ltac:(lia)) as L6. cbn [ver_size] in L6. fold aB in L6.
  assert (HM1 : ver_call Es P y (fun j => c (1 + j)) (vs0 c) pt ch (q 0) (q 5) (fun j => q (7 + j))).
  { assert (Tab : forall a n f, constants st a n f (round_writes P q) -> constants y a n f (ws c)).
    { intros a n f Hk k Hk'. destruct (Hk k Hk') as (p & A & B & C). exists p. split; [exact A|]. split; [|exact C].
      apply (ws_ro y c m); auto; [apply vreads_ro, B|apply B]. }
    assert (Rg : forall k, k < 13 -> (k <> 0 /\ k <> 5 /\ k <> 7 /\ k <> 8) -> reads y (ws c) (q k) (c k)).
    { intros k Hk Hne. apply (ws_reg y c m); auto. intros x Hx. destruct x as [|[|[|x]]]; cbn [ix]; lia. }
    assert (Hd : forall k, k < 13 -> CodeZkbSpec.holds y (q k) (c k)) by (intros k Hk; split; [apply (heap_pts _ _ _ _ _ _ H), Hc, Hk|apply Lb, Hk]).
    split; cbn [y iv pv]; fold (ws c).
    - exact I0.
    - exact I1.
    - exists (fun j => q (1 + j)). split; [exact B0|]. intros j Hj. split; [apply Rg; lia|]. rewrite Ll by lia. destruct (e2 j Hj) as [->| ->]; cbn [ver_size Nat.add]; fold aB; lia.
    - exists (fun j => q (3 + j)). split; [exact B1|]. intros j Hj. cbn [vs0 v_inputShare]. split; [apply Rg; lia|]. split; [destruct (e2 j Hj) as [->| ->]; assumption|].
      rewrite Ll by lia. destruct (e2 j Hj) as [->| ->]; cbn [ver_size Nat.add]; fold sB; lia.
    - exists (q 6). split; [exact B2|]. cbn [vs0 v_communicatedBits Nat.add]. split; [apply Hd; lia|]. split; [rewrite Z5, length_zeros; lia|]. split; [apply Rg; lia|rewrite L6; lia].
    - split; [exact B3|]. intros j Hj. cbn [vs0 v_outputShare]. split; [apply Hd; lia|]. rewrite Ll by lia. destruct (e2 j Hj) as [->| ->]; reflexivity.
    - exists qp. split; [exact E4|]. split; [|split; [exact Ap|exact Lp]]. apply (ws_ro y c m); auto; [apply vreads_ro, Rp|apply Rp].
    - split; [exact B5|]. split; [exact A0|]. exists (firstn (16 * W) (c 0)). cbn [nx mm].
      split; [apply pts_firstn, (heap_pts _ _ _ _ _ _ H 0), Hc; lia|]. rewrite firstn_length, Ll by lia. cbn [ver_size]. fold W sB aB. lia.
    - intros x x' p1 k1 p2 k2 H1 H2 Hne. destruct (ws_nth _ _ _ _ _ H H1) as (X1 & -> & Y1). destruct (ws_nth _ _ _ _ _ H H2) as (X2 & -> & Y2).
      apply (disj_sub _ _ _ _ _ _ (heap_disj _ _ _ _ _ _ _ _ H (ix_lt x) (ix_lt x') ltac:(destruct x as [|[|[|[|x]]]], x' as [|[|[|[|x']]]]; cbn [ix]; lia))); assumption.
    - apply Tab, (rc_K _ _ _ _ _ _ _ _ _ HM).
    - apply Tab, (rc_L _ _ _ _ _ _ _ _ _ HM).
    - apply Tab, (rc_C _ _ _ _ _ _ _ _ _ HM). }
  apply (runs_mpc_LowMC_verify U HU Es P HP HE HCs y _ _ pt ch (q 0) (q 5) _ HM1). intros m' u' V1 V2 HV P5 P7 P8 Hch (l & Pl & Lsl & Bl). fold W in Lsl. cbn [y nx mm iv dv pv Nat.add] in *.
  fold (ws c) in Hch. destruct Rp as (_ & Bp & _).
  assert (EV : (V1, V2) = V).
  { pose proof (mpc_LowMC_verify_eq Es P HP1 HE HCs ch (c 3) (c 4) t1 t2 (c 6) pt (c 1, c 2) (16 * W) ltac:(auto) ltac:(fold W; lia) Bp (Li 3 ltac:(lia)) (Li 4 ltac:(lia)) L6 (Lb 6 ltac:(lia)) Lt1 Lt2
      (tape_is_firstn P HP1 _ _ Lt1 T1) (tape_is_firstn P HP1 _ _ Lt2 T2)) as X.
    fold sB aB in X. rewrite <- Z5, <- Z7 in X. rewrite Z7 in X at 2. rewrite <- Z8 in X.
    change (mpc_LowMC_verify Es P (mkView (c 3) (c 5) (c 7)) (mkView (c 4) (c 6) (c 8)) (c 1, c 2) (16 * W) pt ch = Ok (V1, V2)) in HV. rewrite HV in X. injection X as X. exact X. }
  pose proof (ver_of_spec Es P HP1 HE HCs ch (c 3) (c 4) t1 t2 (c 6) pt ltac:(fold W; lia) Bp (Li 3 ltac:(lia)) (Li 4 ltac:(lia)) L6 (Lb 6 ltac:(lia)) Lt1 Lt2) as HV2. fold V in HV2. rewrite <- EV in HV2, HQ. cbn [fst snd] in HV2, HQ.
  destruct HV2 as (_ & _ & _ & Q1 & Q2 & _ & (Q3 & Q4 & _) & (Q5 & Q6 & _) & _).
  set (c' := cset (cset (cset (cset c 0 (l ++ skipn (16 * W) (c 0))) 5 (v_communicatedBits V1)) 7 (v_outputShare V1)) 8 (v_outputShare V2)).
  assert (Co : forall k, k <> 0 -> k <> 5 -> k <> 7 -> k <> 8 -> c' k = c k) by (intros k K0 K5 K7 K8; unfold c'; rewrite !cset_neq by assumption; reflexivity).
  apply (HQ _ m' u' c'); auto.
  - intros x Hx. apply upd_neq, Hx.
  - apply (heap_multi n0 m0 vl n0 m m' c c' (ws c) H Hch).
    + intros p k' Hw. destruct (ws_in _ _ _ _ H Hw) as (x & Hx & -> & Hl). exists (ix x). split; [apply ix_lt|]. cbn [vl reg]. split; [reflexivity|]. cbn [vl sz] in Hl |- *. lia.
    + intros k Hi. destruct (Nat.eq_dec k 0) as [->|K0]; [|destruct (Nat.eq_dec k 5) as [->|K5]; [|destruct (Nat.eq_dec k 7) as [->|K7]; [|destruct (Nat.eq_dec k 8) as [->|K8]]]].
      * pose proof (heap_pts _ _ _ _ _ _ H 0 Hi) as P0'. pose proof (heap_len _ _ _ _ _ _ H 0 Hi) as L0'. pose proof (heap_ok _ _ _ _ _ _ H 0 Hi) as K0'. change (c' 0) with (l ++ skipn (16 * W) (c 0)).
        rewrite <- (firstn_skipn (16 * W) (c 0)) in K0'. apply bytes_ok_app in K0'. assert (Z0 : sz vl 0 = Nat.max (6 * sB) (sB + aB)) by reflexivity. split; [|split].
        -- apply pts_app. split; [exact Pl|]. split; [|apply Pl]. intros _. rewrite Lsl.
           assert (X1 : pts n0 m (fst (q 0), snd (q 0) + 16 * W) (skipn (16 * W) (c 0))).
           { pose proof (pts_sub _ _ _ _ (16 * W) (length (c 0) - 16 * W) P0' ltac:(lia)) as X. rewrite firstn_all2 in X by (rewrite skipn_length; lia). exact X. }
           apply (pts_chg _ _ _ _ _ _ Hch X1). rewrite skipn_length. intros p l' Hw. apply In_nth_error in Hw. destruct Hw as (x & Hw). destruct (ws_nth _ _ _ _ _ H Hw) as (Hx & -> & Hl).
           destruct x as [|x]; [cbn in Hw; injection Hw as <-; right; left; cbn [fst snd ix]; fold W; lia|].
           assert (Hne : ix (S x) <> 0) by (destruct x as [|[|x]]; cbn [ix]; lia).
           pose proof (heap_disj _ _ _ _ _ _ _ _ H (ix_lt (S x)) Hi Hne) as D. cbn [vl reg] in D. unfold disj in *. cbn [fst snd]. lia.
        -- rewrite app_length, skipn_length. lia.
        -- apply bytes_ok_app. split; [exact Bl|apply K0'].
      * split; [exact P5|]. split; [exact Q1|exact Q2].
      * split; [exact P7|]. split; [exact Q3|exact Q4].
      * split; [exact P8|]. split; [exact Q5|exact Q6].
      * rewrite Co by assumption. split; [|split; [apply (heap_len _ _ _ _ _ _ H k Hi)|apply (heap_ok _ _ _ _ _ _ H k Hi)]]. apply (pts_chg _ _ _ _ _ _ Hch (heap_pts _ _ _ _ _ _ H k Hi)).
        rewrite (heap_len _ _ _ _ _ _ H k Hi). intros p l' Hw. destruct (ws_in _ _ _ _ H Hw) as (x & Hx & -> & Hl).
        apply (disj_sub _ _ _ _ _ _ (heap_disj _ _ _ _ _ _ _ _ H (ix_lt x) Hi ltac:(destruct x as [|[|[|x]]]; cbn [ix]; lia))); auto.
Qed.

(** ** The whole round *)
Notation shr e := (share_in Es P (sd e) (p_inputShare pr) salt i (pty e)).
Lemma raw_share e : length (raw e) = sB -> zeroTrailingBits (raw e) (stateSizeBits P) = Ok (shr e).
Proof. intros H. destruct (clear_tail_spec P HP1 (raw e) H) as [X _]. rewrite X. f_equal. unfold raw, share_in, party_in. destruct (pty e <? 2); reflexivity. Qed.
Lemma raw_len e : length (raw e) = sB.
Proof.
  unfold raw. destruct (pty e <? 2) eqn:Ee; [|apply (rc_input _ _ _ _ _ _ _ _ _ HM)]. rewrite firstn_length, (length_party_bytes Es P HE). unfold party_len. rewrite Ee. fold sB. lia.
Qed.
Let comm := p_communicatedBits pr.
Definition VV : view * view := ver_of Es P ch (shr 0) (shr 1) (tpe 0) (tpe 1) comm pt.
Definition vheld (c : nat -> bytes) : Prop := vv c 0 = fst VV /\ vv c 1 = snd VV.

Lemma shr_wf e : in_wf P (shr e).
Proof.
  destruct (rc_input _ _ _ _ _ _ _ _ _ HM) as [Gi Li]. destruct (given_ro _ _ Gi) as (_ & _ & _ & Bi). apply (share_in_wf Es P HP1 HE); [|apply pty_lt]. intros _. split; assumption.
Qed.
Lemma VV_spec : ver_views Es P ch (shr 0) (shr 1) (tpe 0) (tpe 1) comm pt (fst VV) (snd VV).
Proof.
  destruct (rc_pt _ _ _ _ _ _ _ _ _ HM) as (_ & _ & (_ & Bp & _) & _ & Lp). destruct (rc_comm _ _ _ _ _ _ _ _ _ HM) as [Gc Lc]. destruct (given_ro _ _ Gc) as (_ & _ & _ & Bc).
  apply (ver_of_spec Es P HP1 HE HCs); auto; try apply shr_wf; try apply (length_party_tape Es P HE). fold W. lia.
Qed.

Lemma h_verifyProof iv1 dv1 m u c (Q : state -> Prop) : iv1 1 = ch -> hp m c -> (forall k, 3 <= k < 9 -> c k = zeros (sz vl k)) ->
  (forall iv' m' u' c', (forall x, x <> 0 -> x <> 2 -> iv' x = iv1 x) -> hp m' c' -> vheld c' -> (forall k, 9 <= k -> c' k = c k) -> Q (mkState iv' dv1 (pv st) m' n0 u')) ->
  runs U (c_verifyProof P i ch) (mkState iv1 dv1 (pv st) m n0 u) Q.
Proof.
  intros I1 H Hz HQ. pose proof vsB_pos as [Ps Pa]. destruct (rc_bufs _ _ _ _ _ _ _ _ _ HM) as (B0 & B1 & B2 & B3 & B5 & _).
  destruct (rc_comm _ _ _ _ _ _ _ _ _ HM) as [Gc Lc]. destruct (given_ro _ _ Gc) as (qc & E16 & Rc & Bc). fold aB in Lc. fold comm in Lc, Rc, Bc.
  assert (Hc : forall k, k < 13 -> k < cnt vl) by (intros k Hk; apply lt13, Hk).
  assert (WsB : numBytes (stateSizeBits P) = sB) by (symmetry; apply (wf_sB P HP)).
  unfold c_verifyProof. fold aB. apply runs_seq.
  eapply (h_memcpy_part n0 m0 U vl _ _ (IC aB) _ c 6 qc comm); csimpl; [rewrite B2; reflexivity|rewrite E16; reflexivity|apply Hc; lia| |left; exact Rc|exact Bc|cbn [vl sz ver_size]; fold aB; lia|lia|exact Pa|exact H|].
  { apply (ro_neq _ _ _ _ _ H Rc); [apply Hc; lia|cbn [vl sz ver_size]; fold aB; lia|lia]. }
  intros m1 H1. unfold set_mm. cbn [iv dv pv mm nx ct]. rewrite firstn_all2 in H1 by lia.
  rewrite blit_list_all in H1 by (rewrite (heap_len _ _ _ _ _ _ H 6 (Hc 6 ltac:(lia))); symmetry; exact Lc). set (c1 := cset c 6 comm) in H1.
  apply runs_seq, runs_iset. csimpl. set (iv2 := upd iv1 0 0).
  apply runs_seq. apply (h_c_vtape 0 _ _ _ _ c1); [lia|exact H1|]. intros m2 u2 c2 H2 D2 O2.
  apply runs_seq. apply (h_c_vparts 0 _ _ _ _ c2); [lia|exact H2|exact D2|]. intros m3 u3 c3 H3 R3 T3 O3. cbn [Nat.add] in *.
  apply runs_seq. eapply runs_if; [csimpl; reflexivity|]. cbv iota.
  apply runs_seq. apply (h_c_vtape 1 _ _ _ _ c3); [lia|exact H3|]. intros m4 u4 c4 H4 D4 O4.
  eapply runs_if; [csimpl; reflexivity|]. cbv iota.
  apply (h_c_vparts 1 _ _ _ _ c4); [lia|exact H4|exact D4|]. intros m5 u5 c5 H5 R5 T5 O5. cbn [Nat.add] in *.
  assert (R50 : c5 3 = raw 0) by (rewrite O5, O4 by lia; exact R3).
  apply runs_seq. eapply (h_zeroTrailingBits n0 m0 U vl _ _ _ c5 3 (shr 0)); csimpl; [rewrite B1; reflexivity|apply Hc; lia|rewrite WsB; cbn [vl sz ver_size]; fold sB; lia|exact H5|rewrite R50; apply raw_share, raw_len|].
  intros m6 H6. unfold set_mm. cbn [iv dv pv mm nx ct]. set (c6 := cset c5 3 _) in H6.
  assert (R61 : c6 4 = raw 1) by (unfold c6; rewrite cset_neq by lia; exact R5).
  apply runs_seq. eapply (h_zeroTrailingBits n0 m0 U vl _ _ _ c6 4 (shr 1)); csimpl; [rewrite B1; reflexivity|apply Hc; lia|rewrite WsB; cbn [vl sz ver_size]; fold sB; lia|exact H6|rewrite R61; apply raw_share, raw_len|].
  intros m7 H7. unfold set_mm. cbn [iv dv pv mm nx ct]. set (c7 := cset c6 4 _) in H7.
  assert (C7 : forall k, k <> 0 -> k <> 1 -> k <> 2 -> k <> 3 -> k <> 4 -> c7 k = c1 k).
  { intros k K0 K1 K2 K3 K4. unfold c7, c6. rewrite !cset_neq by assumption. rewrite O5, O4, O3, O2 by lia. reflexivity. }
  assert (S3 : c7 3 = shr 0) by (unfold c7, c6; rewrite cset_neq by lia; apply cset_eq). assert (S4 : c7 4 = shr 1) by (unfold c7; apply cset_eq).
  assert (S6 : c7 6 = comm) by (rewrite C7 by lia; unfold c1; apply cset_eq).
  assert (Zo : forall k, 3 <= k < 9 -> k <> 3 -> k <> 4 -> k <> 6 -> c7 k = zeros (sz vl k)) by (intros k Hk K3 K4 K6; rewrite C7 by lia; unfold c1; rewrite cset_neq by exact K6; apply Hz, Hk).
  apply (h_vmpc (tpe 0) (tpe 1) _ _ _ _ c7).
  - reflexivity.
  - exact I1.
  - exact H7.
  - unfold c7, c6. rewrite !cset_neq by lia. rewrite O5, O4 by lia. exact T3.
  - unfold c7, c6. rewrite !cset_neq by lia. exact T5.
  - apply (length_party_tape Es P HE).
  - apply (length_party_tape Es P HE).
  - apply (Zo 5); lia.
  - apply (Zo 7); lia.
  - apply (Zo 8); lia.
  - rewrite S3, S4, S6. fold VV. intros iv' m8 u8 c8 J H8 E5 E7 E8 O8. pose proof VV_spec as VS. destruct VS as (V1 & V2 & V3 & _).
    apply (HQ iv' m8 u8 c8).
    + intros x X0 X2. rewrite J by exact X0. rewrite !upd_neq by assumption. unfold iv2. apply upd_neq, X0.
    + exact H8.
    + unfold vheld, vv. cbn [Nat.add]. rewrite E5, E7, E8, (O8 3), (O8 4), (O8 6) by lia. rewrite S3, S4, S6.
      split; [rewrite <- V1; destruct (fst VV); reflexivity|]. rewrite <- V2, <- V3. destruct (snd VV); reflexivity.
    + intros k Hk. rewrite O8, C7 by lia. unfold c1. apply cset_neq. lia.
Qed.

Definition VVe (e : nat) : view := if e =? 0 then fst VV else snd VV.
Definition vdone (c : nat -> bytes) : Prop :=
  c 7 = v_outputShare (fst VV) /\ c 8 = v_outputShare (snd VV) /\ c 12 = lxor_list (lxor_list (v_outputShare (fst VV)) (v_outputShare (snd VV))) (firstn sB pub) /\
  (forall e, e < 2 -> c (9 + pty e) = commit_val Es P (sd e) (VVe e)) /\ c (9 + pty 2) = p_view3Commitment pr /\
  (is_UR (transf P) = true -> (forall e, e < 2 -> firstn (G_len P (pty e)) (c (13 + pty e)) = G_val Es P (pty e) (sd e) (VVe e)) /\
     firstn (G_len P (pty 2)) (c (13 + pty 2)) = firstn (G_len P (pty 2)) (p_view3UnruhG pr)).
Lemma pty_ne : pty 0 <> pty 1 /\ pty 0 <> pty 2 /\ pty 1 <> pty 2.
Proof. destruct (rc_challenge _ _ _ _ _ _ _ _ _ HM) as [_ Hch]. destruct (lt3_cases ch Hch) as [->|[->| ->]]; cbv; repeat split; discriminate. Qed.
Lemma vheld_vv c e : vheld c -> e < 2 -> vv c e = VVe e.
Proof. intros [A B] He. destruct (e2 e He) as [->| ->]; assumption. Qed.
Lemma vheld_set c k l : vheld c -> 9 <= k -> vheld (cset c k l).
Proof. intros [A B] Hk. unfold vheld, vv in *. rewrite !cset_neq by lia. auto. Qed.

Lemma h_xor3 iv1 dv1 m u c (Q : state -> Prop) : hp m c -> vheld c ->
  (forall m', hp m' (cset c 12 (lxor_list (lxor_list (v_outputShare (fst VV)) (v_outputShare (snd VV))) (firstn sB pub))) -> Q (mkState iv1 dv1 (pv st) m' n0 u)) ->
  runs U (c_xor_three (P0 19) (PV 3 (IC 0)) (PV 3 (IC 1)) (P0 13) (IC sB)) (mkState iv1 dv1 (pv st) m n0 u) Q.
Proof.
  intros H [V1 V2] HQ. pose proof vsB_pos as [Ps _]. destruct (rc_bufs _ _ _ _ _ _ _ _ _ HM) as (_ & _ & _ & B3 & _ & _ & _ & B19). destruct (rc_align _ _ _ _ _ _ _ _ _ HM) as (_ & _ & _ & A7 & A8 & A12).
  destruct (rc_pub _ _ _ _ _ _ _ _ _ HM) as (qb & E13 & Rb & Ab & Lb). pose proof (vreads_ro _ _ Rb) as Rb'. destruct Rb as (_ & Bb & _). fold sB in Lb.
  assert (Hc : forall k, k < 13 -> k < cnt vl) by (intros k Hk; apply lt13, Hk).
  assert (S7 : forall k, k = 7 \/ k = 8 \/ k = 12 -> sz vl k = sB) by (intros k [->|[->| ->]]; reflexivity).
  assert (O7 : c 7 = v_outputShare (fst VV)) by (rewrite <- V1; reflexivity). assert (O8 : c 8 = v_outputShare (snd VV)) by (rewrite <- V2; reflexivity).
  assert (Ll : forall k, k = 7 \/ k = 8 \/ k = 12 -> length (c k) = sB) by (intros k Hk; rewrite (heap_len _ _ _ _ _ _ H k (Hc k ltac:(lia))); apply S7, Hk).
  eapply (h_xor_three n0 m0 U vl _ _ _ _ (IC sB) _ c 12 (q 7) (q 8) qb (c 7) (c 8) pub); csimpl.
  { rewrite B19. reflexivity. }
  { rewrite B3. reflexivity. }
  { rewrite B3. reflexivity. }
  { rewrite E13. reflexivity. }
  { apply Hc. lia. }
  { rewrite S7 by auto. auto. }
  { right. exists 7. split; [apply Hc; lia|]. auto. }
  { right. exists 8. split; [apply Hc; lia|]. auto. }
  { left. exact Rb'. }
  { rewrite Ll by auto. auto. }
  { rewrite Ll by auto. auto. }
  { exact Lb. }
  { apply (heap_ok _ _ _ _ _ _ H), Hc. lia. }
  { apply (heap_ok _ _ _ _ _ _ H), Hc. lia. }
  { exact Bb. }
  { apply (reg_neq _ _ _ _ H); try (apply Hc; lia); try (rewrite S7 by auto; exact Ps). lia. }
  { apply (reg_neq _ _ _ _ H); try (apply Hc; lia); try (rewrite S7 by auto; exact Ps). lia. }
  { apply (ro_neq _ _ _ _ _ H Rb'); [apply Hc; lia|rewrite S7 by auto; exact Ps|lia]. }
  { exact A12. }
  { exact A7. }
  { exact A8. }
  { exact Ab. }
  { exact H. }
  intros m' H'. unfold set_mm. cbn [iv dv pv mm nx ct]. rewrite (firstn_all2 (c 7)), (firstn_all2 (c 8)) in H' by (rewrite Ll by auto; auto).
  assert (Lx : length (c 12) = length (lxor_list (lxor_list (c 7) (c 8)) (firstn sB pub))).
  { rewrite (Ll 12) by auto. rewrite !length_lxor_list; rewrite ?length_lxor_list; rewrite ?firstn_length, ?Ll by auto; lia. }
  rewrite blit_list_all in H' by exact Lx. apply HQ. rewrite <- O7, <- O8. exact H'.
Qed.

Lemma h_verify_challenge iv1 dv1 m u c (Q : state -> Prop) : 0 < digestSizeBytes P -> iv1 1 = ch -> hp m c -> (forall k, 3 <= k < 9 -> c k = zeros (sz vl k)) ->
  (forall iv' m' u' c', (forall x, x <> 0 -> x <> 2 -> iv' x = iv1 x) -> hp m' c' -> vdone c' -> Q (mkState iv' dv1 (pv st) m' n0 u')) ->
  runs U (c_verify_challenge P i ch) (mkState iv1 dv1 (pv st) m n0 u) Q.
Proof.
  intros Wd I1 H Hz HQ. unfold c_verify_challenge. fold sB. destruct pty_ne as (N01 & N02 & N12). destruct (rc_challenge _ _ _ _ _ _ _ _ _ HM) as [_ Hch].
  pose proof (pty_lt 0) as Y0. pose proof (pty_lt 1) as Y1. pose proof (pty_lt 2) as Y2.
  destruct (rc_bufs _ _ _ _ _ _ _ _ _ HM) as (_ & _ & _ & _ & _ & B14 & B15 & _).
  destruct (rc_commit _ _ _ _ _ _ _ _ _ HM) as [Gc Lc]. destruct (given_ro _ _ Gc) as (qc & E17 & Rc & Bc).
  assert (K9 : 9 + pty 2 < cnt vl) by (apply lt13; lia). assert (S9 : sz vl (9 + pty 2) = dB) by (destruct (lt3_cases (pty 2) Y2) as [X|[X|X]]; rewrite X; reflexivity).
  apply runs_seq. apply (h_verifyProof _ _ _ _ c); [exact I1|exact H|exact Hz|]. intros iv2 m2 u2 c2 J H2 V2 _.
  apply runs_seq. apply (h_vcommit 0 _ _ _ _ c2); [lia|exact H2|]. rewrite (vheld_vv c2 0 V2) by lia. intros m3 u3 H3. set (c3 := cset c2 _ _) in H3.
  assert (V3 : vheld c3) by (apply vheld_set; [exact V2|lia]).
  apply runs_seq. apply (h_vcommit 1 _ _ _ _ c3); [lia|exact H3|]. rewrite (vheld_vv c3 1 V3) by lia. intros m4 u4 H4. set (c4 := cset c3 _ _) in H4.
  assert (V4 : vheld c4) by (apply vheld_set; [exact V3|lia]).
  apply runs_seq. eapply (h_memcpy_part n0 m0 U vl _ _ (IC dB) _ c4 (9 + pty 2) qc (p_view3Commitment pr)); csimpl;
    [rewrite B14; destruct (lt3_cases (pty 2) Y2) as [X|[X|X]]; rewrite X; reflexivity|rewrite E17; reflexivity|exact K9| |left; exact Rc|exact Bc|rewrite S9; auto|fold dB in Lc; lia|fold dB in Wd; lia|exact H4|].
  { fold dB in Wd, Lc. apply (ro_neq _ _ _ _ _ H4 Rc); [exact K9|rewrite S9; lia|lia]. }
  intros m5 H5. unfold set_mm. cbn [iv dv pv mm nx ct]. rewrite firstn_all2 in H5 by (fold dB in Lc; lia).
  rewrite blit_list_all in H5 by (rewrite (heap_len _ _ _ _ _ _ H4 _ K9), S9; symmetry; exact Lc). set (c5 := cset c4 _ _) in H5.
  assert (V5 : vheld c5) by (apply vheld_set; [exact V4|lia]).
  assert (D5 : (forall e, e < 2 -> c5 (9 + pty e) = commit_val Es P (sd e) (VVe e)) /\ c5 (9 + pty 2) = p_view3Commitment pr).
  { split; [|apply cset_eq]. intros e He. unfold c5, c4, c3. destruct (e2 e He) as [->| ->].
    - rewrite !cset_neq by lia. apply cset_eq.
    - rewrite cset_neq by lia. apply cset_eq. }
  assert (Fin : forall m u (c' : nat -> bytes), hp m c' -> vheld c' -> (forall k, k < 13 -> c' k = c5 k) ->
    (is_UR (transf P) = true -> (forall e, e < 2 -> firstn (G_len P (pty e)) (c' (13 + pty e)) = G_val Es P (pty e) (sd e) (VVe e)) /\
     firstn (G_len P (pty 2)) (c' (13 + pty 2)) = firstn (G_len P (pty 2)) (p_view3UnruhG pr)) ->
    runs U (c_xor_three (P0 19) (PV 3 (IC 0)) (PV 3 (IC 1)) (P0 13) (IC sB)) (mkState iv2 dv1 (pv st) m n0 u) Q).
  { intros m' u' c' H' V' C' G'. apply (h_xor3 _ _ _ _ c'); [exact H'|exact V'|]. intros m9 H9. apply (HQ iv2 m9 u' _ J H9). unfold vdone.
    destruct V' as [X1 X2]. assert (O7 : c' 7 = v_outputShare (fst VV)) by (rewrite <- X1; reflexivity). assert (O8 : c' 8 = v_outputShare (snd VV)) by (rewrite <- X2; reflexivity).
    rewrite cset_eq. rewrite !(cset_neq c') by lia. split; [exact O7|]. split; [exact O8|]. split; [reflexivity|]. split.
    - intros e He. pose proof (pty_lt e). rewrite cset_neq by lia. rewrite C' by lia. apply D5, He.
    - split; [rewrite C' by lia; apply D5|]. intros Hu. destruct (G' Hu) as [G1 G2]. split; [|rewrite ?cset_neq by lia; exact G2]. intros e He. rewrite ?cset_neq by lia. apply G1, He. }
  destruct (is_UR (transf P)) eqn:Hu; cycle 1.
  { apply runs_seq, runs_skip. apply (Fin m5 u4 c5 H5 V5); [auto|discriminate]. }
  pose proof (w1_Gw P HP1 Hu) as Wg. destruct (rc_G _ _ _ _ _ _ _ _ _ HM Hu) as [Gg Lg]. destruct (given_ro _ _ Gg) as (qg & E18 & Rg & Bg). specialize (B15 eq_refl).
  rewrite (G_len_prv P HP1 ch Hu Hch). change (prv ch) with (pty 2).
  assert (Gb : forall j, 0 < G_len P j <= UnruhGWithInputBytes P) by (intros j; rewrite Wg; unfold G_len; pose proof vsB_pos as [? ?]; unfold sB, aB in *; destruct (j =? 2); lia).
  assert (Ke : forall e, 13 + pty e < cnt vl) by (intros e; pose proof (pty_lt e); apply lt16; [exact Hu|lia]).
  assert (Se : forall e, sz vl (13 + pty e) = UnruhGWithInputBytes P) by (intros e; destruct (lt3_cases (pty e) (pty_lt e)) as [X|[X|X]]; rewrite X; reflexivity).
  assert (Lv : forall j s v, length (G_val Es P j s v) = G_len P j) by (intros j s v; unfold G_val; apply (hash_len Es P HE)).
  apply runs_seq. apply runs_seq. apply (h_vG 0 _ _ _ _ c5); [exact Hu|lia|exact H5|]. rewrite (vheld_vv c5 0 V5) by lia. intros m6 u6 H6. set (c6 := cset c5 _ _) in H6.
  assert (V6 : vheld c6) by (apply vheld_set; [exact V5|lia]).
  apply runs_seq. apply (h_vG 1 _ _ _ _ c6); [exact Hu|lia|exact H6|]. rewrite (vheld_vv c6 1 V6) by lia. intros m7 u7 H7. set (c7 := cset c6 _ _) in H7.
  assert (V7 : vheld c7) by (apply vheld_set; [exact V6|lia]). pose proof (Gb (pty 2)) as Gb2.
  eapply (h_memcpy_part n0 m0 U vl _ _ (IC (G_len P (pty 2))) _ c7 (13 + pty 2) qg (p_view3UnruhG pr)); csimpl;
    [rewrite B15; destruct (lt3_cases (pty 2) Y2) as [X|[X|X]]; rewrite X; reflexivity|rewrite E18; reflexivity|apply Ke| |left; exact Rg|exact Bg|rewrite Se; lia|lia|lia|exact H7|].
  { apply (ro_neq _ _ _ _ _ H7 Rg); [apply Ke|rewrite Se; lia|lia]. }
  intros m8 H8. unfold set_mm. cbn [iv dv pv mm nx ct]. set (c8 := cset c7 _ _) in H8.
  apply (Fin m8 u7 c8 H8).
  - apply vheld_set; [exact V7|lia].
  - intros k Hk. unfold c8, c7, c6. rewrite !cset_neq by lia. reflexivity.
  - intros _. split.
    + intros e He. unfold c8. rewrite (cset_neq c7) by (destruct (e2 e He) as [->| ->]; lia). unfold c7. destruct (e2 e He) as [->| ->].
      * rewrite (cset_neq c6) by lia. unfold c6. rewrite cset_eq. apply firstn_blit0. symmetry. apply Lv.
      * rewrite cset_eq. apply firstn_blit0. symmetry. apply Lv.
    + unfold c8. rewrite cset_eq. apply firstn_blit0. rewrite firstn_length. lia.
Qed.
End Round.
End Hash.
End S.
