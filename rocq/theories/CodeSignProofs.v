(** One round of ZKB++ signing on memory with pointers. *)

From Coq Require Import List NArith Arith Bool Lia ZifyBool ZifyNat ZifyN.
From Verif Require Import Base Params Env Spec LowMC Picnic1 MiniC CodeLowMC CodeZkb CodeKeccak CodeP3 CodeSpec HashSpec CodeKeccakSpec CodeZkbSpec CodeHashUses CodeSign CodeSignSpec
  ApiSpec BaseFacts ParamFacts LowMCFacts SigSpec ZkbMpc Zkb ZkbRound ZkbSign HashProofs
  MiniCFacts CodeRules CodeLowMCProofs CodeHeap CodeZkbProofs CodeZkbBits CodeZkbSub CodeZkbMpc CodeZkbRun CodeP3Proofs CodeP3Lin CodeP3Sim CodeXor CodeHashUsesTop CodeSignRules.
From Verif Require CodeHashUsesSpec.
Import ListNotations.
Local Open Scope c_scope.

Lemma blit_list_all {A} (b src : list A) : length b = length src -> blit_list b 0 src = src.
Proof. intros H. unfold blit_list. cbn [firstn app]. rewrite skipn_all2 by lia. apply app_nil_r. Qed.

(** All buffers are far below 4 GiB. *)
Definition small (P : paramset) : Prop :=
  (N.of_nat (seedSizeBytes P + saltSizeBytes P + stateSizeBytes P + andSizeBytes P + digestSizeBytes P + UnruhGWithInputBytes P) + 200 <= 2 ^ 32)%N.

Lemma small_short P l : small P -> length l <= seedSizeBytes P + saltSizeBytes P + stateSizeBytes P + andSizeBytes P + digestSizeBytes P + UnruhGWithInputBytes P -> short l.
Proof. unfold small, short. generalize (2 ^ 32)%N. intros x. lia. Qed.

Section S.
Variables (U : nat -> nat -> bytes) (HU : locals_ok U) (E : env) (P : paramset) (HP1 : wfP1 P) (HS : small P) (HE0 : env_bytes_ok E) (HC : constants_ok E P).
Variables (st : state) (q : nat -> ptr) (allSeeds salt sk pub pt : bytes).
Hypothesis HM : sign_call P E st q allSeeds salt sk pub pt.
Notation Es := (with_shake E).
Let HE : env_bytes_ok Es := shake_env E HE0.
Let HCs : constants_ok Es P := HC.
Let HP : wfP P := w1_wfP P HP1.
Let W := stateSizeWords P.
Let sB := stateSizeBytes P.
Let aB := andSizeBytes P.
Let dB := digestSizeBytes P.
Let T := numMPCRounds P.
Let n0 := nx st.
Let m0 := mm st.
Let sl : layout := mkLayout (round_at P T) q (sign_size P).
Notation hp := (heap n0 m0 sl n0).
Notation ro := (ro n0 m0 sl).
Notation R k j := (round_at P k + j).

Lemma per_12 : 12 <= per_round P <= 15.
Proof. unfold per_round. destruct (is_UR _); lia. Qed.
Lemma per_15 : is_UR (transf P) = true -> per_round P = 15.
Proof. unfold per_round. intros ->. reflexivity. Qed.
Lemma R_lt k j : k < T -> j < per_round P -> R k j < cnt sl.
Proof. intros Hk Hj. cbn [sl cnt]. unfold round_at. nia. Qed.
Lemma R_sz k j : j < per_round P -> sz sl (R k j) = kind_size P j.
Proof.
  intros Hj. cbn [sl sz]. unfold sign_size, round_at. rewrite (proj2 (Nat.eqb_neq _ 0)), (proj2 (Nat.ltb_ge _ 4)) by lia.
  replace (4 + per_round P * k + j - 4) with (j + k * per_round P) by lia. rewrite Nat.mod_add, Nat.mod_small by lia. reflexivity.
Qed.
Lemma lo_lt i : i < 4 -> i < cnt sl.
Proof. intros H. cbn [sl cnt]. unfold round_at. lia. Qed.
Lemma reads_ro p l : reads st (sign_writes P q) p l -> ro p l.
Proof. intros (A & _ & B). split; [exact A|]. intros k Hk. apply B. unfold sign_writes. apply in_map_iff. exists k. split; [reflexivity|]. apply in_seq. cbn [sl cnt] in Hk. fold T. lia. Qed.
Lemma regions_sl : regions sl = sign_writes P q.
Proof. reflexivity. Qed.

(** Variables of round [k]. *)
Record rv (ps : ptr) (k : nat) (p : nat -> list ptr) : Prop := {
  rv0 : p 0 = for3 (fun j => q (1 + j));
  rv1 : p 1 = for3 (fun j => q (R k j));
  rv2 : p 2 = for3 (fun j => q (R k (3 + j)));
  rv3 : p 3 = for3 (fun j => q (R k (6 + j)));
  rv4 : forall a, 4 <= a <= 9 -> p a = pv st a;
  rv10 : p 10 = for3 (fun j => (fst ps, snd ps + (3 * k + j) * seedSizeBytes P));
  rv11 : forall a, 11 <= a <= 13 -> p a = pv st a;
  rv14 : p 14 = for3 (fun j => q (R k (9 + j)));
  rv15 : is_UR (transf P) = true -> p 15 = for3 (fun j => q (R k (12 + j)))
}.
Lemma rv_upd ps k p x y : rv ps k p -> rv ps k (upd (upd p 16 x) 16 y).
Proof.
  intros [A0 A1 A2 A3 A4 A10 A11 A14 A15].
  assert (G : forall a, a < 16 -> upd (upd p 16 x) 16 y a = p a) by (intros a Ha; rewrite !upd_neq by lia; reflexivity).
  split; try (intros a Ha; rewrite G by lia; auto); try (intros Hu; rewrite G by lia; auto); rewrite G by lia; assumption.
Qed.
Lemma rv_upd1 ps k p x : rv ps k p -> rv ps k (upd p 16 x).
Proof.
  intros [A0 A1 A2 A3 A4 A10 A11 A14 A15].
  assert (G : forall a, a < 16 -> upd p 16 x a = p a) by (intros a Ha; rewrite !upd_neq by lia; reflexivity).
  split; try (intros a Ha; rewrite G by lia; auto); try (intros Hu; rewrite G by lia; auto); rewrite G by lia; assumption.
Qed.

Variable ps : ptr.
Hypothesis Hps : reads st (sign_writes P q) ps allSeeds.
Hypothesis Lps : 3 * T * seedSizeBytes P <= length allSeeds.

Section Round.
Variable k : nat.
Hypothesis Hk : k < T.
Let s (j : nat) : bytes := seed_kj P allSeeds k j.

Lemma s_len j : j < 3 -> length (s j) = seedSizeBytes P.
Proof. intros Hj. unfold s, seed_kj. rewrite firstn_length, skipn_length. assert ((3 * k + j) * seedSizeBytes P + seedSizeBytes P <= 3 * T * seedSizeBytes P) by nia. lia. Qed.
Lemma s_at m c j : hp m c -> j < 3 -> pts n0 m (fst ps, snd ps + (3 * k + j) * seedSizeBytes P) (s j).
Proof.
  intros H Hj. unfold s, seed_kj. apply pts_sub; [apply (heap_ro _ _ _ _ _ _ _ _ H), reads_ro, Hps|].
  assert ((3 * k + j) * seedSizeBytes P + seedSizeBytes P <= 3 * T * seedSizeBytes P) by nia. lia.
Qed.
Lemma s_ok j : bytes_ok (s j).
Proof. unfold s, seed_kj. apply Forall_firstn. destruct Hps as (_ & B & _). rewrite <- (firstn_skipn ((3 * k + j) * seedSizeBytes P) allSeeds) in B. apply bytes_ok_app in B. apply B. Qed.
Lemma s_seed_at j : j < 3 -> seed_at P allSeeds k j = Ok (s j).
Proof.
  intros Hj. unfold seed_at. rewrite (w1_N P HP1). unfold s, seed_kj. apply slice_ok.
  assert ((3 * k + j) * seedSizeBytes P + seedSizeBytes P <= 3 * T * seedSizeBytes P) by nia. lia.
Qed.

(** ** Hash functions *)
Definition zst (l : list (list ptr)) (m : memory) (u : nat) : state := mkState (args 0 []) (args 0%N []) (args [] l) m n0 u.

Lemma z_room qr (l : list (list ptr)) m u c kk n : hp m c -> ro qr round_constant_bytes -> kk < cnt sl -> n <= sz sl kk -> nth 5 l [] = [q kk] ->
  CodeHashUsesSpec.room_at (zst l m u) qr 5 0 (q kk) n.
Proof.
  intros H Hr Hkk Hn Hl. pose proof (heap_len _ _ _ _ _ _ H kk Hkk) as Lk. unfold CodeHashUsesSpec.room_at, zst. cbn [pv nx mm]. unfold args. rewrite Hl. split; [reflexivity|]. split.
  - exists (firstn n (c kk)). split; [rewrite firstn_length; lia|]. apply pts_firstn, (heap_pts _ _ _ _ _ _ H kk Hkk).
  - apply (disj_sub _ _ _ _ _ _ (proj2 Hr kk Hkk)); [exact Hn|]. reflexivity.
Qed.
Lemma z_consts qr (l : list (list ptr)) m u c : hp m c -> ro qr round_constant_bytes -> snd qr mod 8 = 0 -> nth 0 l [] = [qr] -> CodeHashUsesSpec.constants (zst l m u) qr.
Proof. intros H Hr A B. unfold CodeHashUsesSpec.constants, zst. cbn [pv nx mm]. split; [exact B|]. split; [exact A|]. exact (heap_ro _ _ _ _ _ _ _ _ H Hr). Qed.
Lemma z_seed (l : list (list ptr)) m u c j : hp m c -> j < 3 -> nth 3 l [] = [(fst ps, snd ps + (3 * k + j) * seedSizeBytes P)] -> CodeHashUsesSpec.holds (zst l m u) 3 0 (seedSizeBytes P) (s j).
Proof.
  intros H Hj Hl. unfold CodeHashUsesSpec.holds, zst. cbn [pv nx mm]. unfold args. rewrite Hl. eexists. split; [reflexivity|]. split; [exact (s_at m c j H Hj)|].
  split; [apply s_ok|]. rewrite s_len by exact Hj. split; [lia|]. apply (small_short P); [exact HS|]. rewrite s_len by exact Hj. lia.
Qed.
Lemma z_off (l : list (list ptr)) m u c kk n i k2 n2 : hp m c -> kk < cnt sl -> n <= sz sl kk -> k2 < cnt sl -> kk <> k2 -> n2 <= sz sl k2 -> short (c k2) ->
  nth_error (nth 4 l []) i = Some (q k2) -> CodeHashUsesSpec.holds_off (q kk) n (zst l m u) 4 i n2 (c k2).
Proof.
  intros H Hkk Hn Hk2 Hne Hn2 Hs Hl. unfold CodeHashUsesSpec.holds_off, zst. cbn [pv nx mm]. unfold args. exists (q k2). split; [exact Hl|].
  split; [apply (heap_pts _ _ _ _ _ _ H k2 Hk2)|]. split; [apply (heap_ok _ _ _ _ _ _ H k2 Hk2)|]. rewrite (heap_len _ _ _ _ _ _ H k2 Hk2).
  split; [exact Hn2|]. split; [exact Hs|]. apply (disj_sub _ _ _ _ _ _ (heap_disj _ _ _ _ _ _ _ _ H Hkk Hk2 Hne)); assumption.
Qed.

Lemma rc_facts : exists qr, pv st 9 = [qr] /\ ro qr round_constant_bytes /\ snd qr mod 8 = 0.
Proof. destruct (sc_rc _ _ _ _ _ _ _ _ _ HM) as (qr & A & B & C). exists qr. split; [exact A|]. split; [apply reads_ro, B|exact C]. Qed.

Lemma h_tape j p kk n iv1 dv1 pv1 m u c (Q : state -> Prop) : rv ps k pv1 -> j < 3 -> peval iv1 pv1 p = Some (q kk) -> kk < cnt sl -> n <= sz sl kk -> n = party_len P j ->
  hp m c -> (forall m' u', hp m' (cset c kk (blit_list (c kk) 0 (party_bytes Es P (s j) salt k j))) -> Q (mkState (upd iv1 1 1) dv1 pv1 m' n0 u')) ->
  runs U (call_tape P k j p n) (mkState iv1 dv1 pv1 m n0 u) Q.
Proof.
  intros Hv Hj Ep Hkk Hn Hl H HQ. pose proof (w1_tape P HP1) as Wt. destruct rc_facts as (qr & E9 & Rr & Ar). destruct (sc_salt _ _ _ _ _ _ _ _ _ HM) as (qa & E11 & Ra & La).
  assert (Hd : digestSizeBytes P <= n) by (rewrite Hl; unfold party_len; destruct (j <? 2); lia).
  set (l := [[qr]; []; []; [(fst ps, snd ps + (3 * k + j) * seedSizeBytes P)]; [qa]; [q kk]] : list (list ptr)).
  unfold call_tape. apply (h_leaves n0 m0 U sl _ _ _ l _ c kk (party_bytes Es P (s j) salt k j)); cbn [iv dv pv mm nx ct].
  - unfold l. cbn [pargevals pargeval pevals peval ieval]. rewrite Ep, (rv4 _ _ _ Hv 9), (rv10 _ _ _ Hv), (rv11 _ _ _ Hv 11), E9, E11 by lia. cbn [nth_error].
    rewrite (for3_nth (fun j => (fst ps, snd ps + (3 * k + j) * seedSizeBytes P))) by exact Hj. reflexivity.
  - change (mkState (args 0 []) (args 0%N []) (args [] l) m n0 u) with (zst l m u).
    destruct (createRandomTape_code U HU E P (zst l m u) qr (q kk) (s j) salt k j n (zeros n) Hd) as (_ & z' & t & R1 & R2 & R3).
    + apply (z_consts qr l m u c); auto.
    + apply (z_room qr l m u c); auto.
    + apply (z_seed l m u c); auto.
    + unfold CodeHashUsesSpec.holds_off, zst. cbn [pv nx mm]. exists qa. split; [reflexivity|]. split; [apply (heap_ro _ _ _ _ _ _ _ _ H), reads_ro, Ra|].
      split; [apply Ra|]. split; [lia|]. split; [apply (small_short P); [exact HS|lia]|].
      apply (disj_sub _ _ _ _ _ _ (proj2 (reads_ro _ _ Ra) kk Hkk)); [exact Hn|lia].
    + rewrite length_zeros. lia.
    + exists z', t. split; [exact R1|]. split.
      * replace (party_bytes Es P (s j) salt k j) with (shake (use_shake128 P) (shake (use_shake128 P) (2%N :: firstn (seedSizeBytes P) (s j)) (digestSizeBytes P) ++ firstn (saltSizeBytes P) salt ++ intLE k ++ intLE j ++ intLE n) n); [exact R2|].
        unfold party_bytes, hash. rewrite <- Hl. cbn [xof with_shake prefix_bytes HASH_PREFIX_NONE HASH_PREFIX_2 concat app]. rewrite !app_nil_r. rewrite (firstn_all2 (s j)), (firstn_all2 salt) by (rewrite ?s_len by exact Hj; lia). reflexivity.
      * intros m' u' Hm'. cbn [copy_back]. rewrite R3. apply HQ, Hm'.
  - exact Hkk.
  - rewrite (length_party_bytes Es P HE). lia.
  - apply (hash_bytes Es P HE).
  - exact H.
Qed.

Definition vw (c : nat -> bytes) (j : nat) : view := mkView (c (R k j)) (c (R k (3 + j))) (c (R k (6 + j))).

Lemma kind_short m c j : hp m c -> j < 12 -> short (c (R k j)).
Proof.
  intros H Hj. pose proof per_12 as Pr. apply (small_short P); [exact HS|]. rewrite (heap_len _ _ _ _ _ _ H _ (R_lt k j Hk ltac:(lia))), R_sz by lia.
  unfold kind_size. repeat match goal with |- context [if ?b then _ else _] => destruct b end; lia.
Qed.
Lemma h_commit j iv1 dv1 pv1 m u c (Q : state -> Prop) : rv ps k pv1 -> j < 3 -> hp m c ->
  (forall m' u', hp m' (cset c (R k (9 + j)) (commit_val Es P (s j) (vw c j))) -> Q (mkState iv1 dv1 pv1 m' n0 u')) ->
  runs U (call_Commit P j) (mkState iv1 dv1 pv1 m n0 u) Q.
Proof.
  intros Hv Hj H HQ. destruct rc_facts as (qr & E9 & Rr & Ar). pose proof per_12 as Pr.
  assert (B9 : R k (9 + j) < cnt sl) by (apply R_lt; [exact Hk|lia]). assert (S9 : sz sl (R k (9 + j)) = dB).
  { rewrite R_sz by lia. unfold kind_size. destruct (lt3_cases j Hj) as [->|[->| ->]]; reflexivity. }
  assert (S0 : sz sl (R k j) = sB) by (rewrite R_sz by lia; unfold kind_size; rewrite (proj2 (Nat.ltb_lt j 3) Hj); reflexivity).
  assert (S3 : sz sl (R k (3 + j)) = aB) by (rewrite R_sz by lia; unfold kind_size; destruct (lt3_cases j Hj) as [->|[->| ->]]; reflexivity).
  assert (S6 : sz sl (R k (6 + j)) = sB) by (rewrite R_sz by lia; unfold kind_size; destruct (lt3_cases j Hj) as [->|[->| ->]]; reflexivity).
  assert (Lc : length (c (R k (9 + j))) = dB) by (rewrite <- S9; apply (heap_len _ _ _ _ _ _ H _ B9)).
  assert (L0 : length (c (R k j)) = sB) by (rewrite <- S0; apply (heap_len _ _ _ _ _ _ H), R_lt; [exact Hk|lia]).
  assert (L3 : length (c (R k (3 + j))) = aB) by (rewrite <- S3; apply (heap_len _ _ _ _ _ _ H), R_lt; [exact Hk|lia]).
  assert (L6 : length (c (R k (6 + j))) = sB) by (rewrite <- S6; apply (heap_len _ _ _ _ _ _ H), R_lt; [exact Hk|lia]).
  set (l := [[qr]; []; []; [(fst ps, snd ps + (3 * k + j) * seedSizeBytes P)]; [q (R k j); q (R k (3 + j)); q (R k (6 + j))]; [q (R k (9 + j))]] : list (list ptr)).
  pose proof (hash_len Es P HE) as Hl. pose proof (hash_bytes Es P HE) as Hb.
  unfold call_Commit. apply (h_leaves n0 m0 U sl _ _ _ l _ c (R k (9 + j)) (commit_val Es P (s j) (vw c j))); cbn [iv dv pv mm nx ct].
  - unfold l. cbn [pargevals pargeval pevals peval ieval]. rewrite (rv4 _ _ _ Hv 9), (rv10 _ _ _ Hv), (rv1 _ _ _ Hv), (rv2 _ _ _ Hv), (rv3 _ _ _ Hv), (rv14 _ _ _ Hv), E9 by lia.
    rewrite (for3_nth (fun j => (fst ps, snd ps + (3 * k + j) * seedSizeBytes P))), !for3_nth by exact Hj. reflexivity.
  - change (mkState (args 0 []) (args 0%N []) (args [] l) m n0 u) with (zst l m u).
    assert (Off : forall i x n2, x < 9 -> n2 = sz sl (R k x) -> nth_error [q (R k j); q (R k (3 + j)); q (R k (6 + j))] i = Some (q (R k x)) ->
      CodeHashUsesSpec.holds_off (q (R k (9 + j))) (digestSizeBytes P) (zst l m u) 4 i n2 (c (R k x))).
    { intros i x n2 Hx -> Hn. apply (z_off l m u c (R k (9 + j)) dB); auto; [rewrite S9; auto|apply R_lt; [exact Hk|lia]|lia|apply (kind_short m); [exact H|lia]]. }
    destruct (Commit_code U HU E P (zst l m u) qr (q (R k (9 + j))) (s j) (vw c j)) as (_ & z' & t & R1 & R2).
    + apply (z_consts qr l m u c); auto.
    + apply (z_room qr l m u c); auto. rewrite S9. auto.
    + apply (z_seed l m u c); auto.
    + apply (Off 0 j); [lia|auto|reflexivity].
    + apply (Off 1 (3 + j)); [lia|auto|reflexivity].
    + apply (Off 2 (6 + j)); [lia|auto|reflexivity].
    + exists z', t. split; [exact R1|]. split.
      * cbn [vw v_inputShare v_communicatedBits v_outputShare] in R2. unfold commit_val, hash. cbn [xof with_shake prefix_bytes HASH_PREFIX_0 HASH_PREFIX_4 concat app vw v_inputShare v_communicatedBits v_outputShare].
        rewrite !app_nil_r. rewrite !firstn_all2 in R2 by (rewrite ?s_len by exact Hj; lia). exact R2.
      * intros m' u' Hm'. cbn [copy_back]. apply (HQ m' u'). rewrite blit_list_all in Hm'; [exact Hm'|]. unfold commit_val. rewrite Hl. exact Lc.
  - exact B9.
  - unfold commit_val. rewrite Hl, S9. auto.
  - apply Hb.
  - exact H.
Qed.

Lemma h_G j iv1 dv1 pv1 m u c (Q : state -> Prop) : is_UR (transf P) = true -> rv ps k pv1 -> j < 3 -> hp m c ->
  (forall m' u', hp m' (cset c (R k (12 + j)) (blit_list (c (R k (12 + j))) 0 (G_val Es P j (s j) (vw c j)))) -> Q (mkState iv1 dv1 pv1 m' n0 u')) ->
  runs U (call_G P j) (mkState iv1 dv1 pv1 m n0 u) Q.
Proof.
  intros Hu Hv Hj H HQ. destruct rc_facts as (qr & E9 & Rr & Ar). pose proof (per_15 Hu) as Pr. pose proof (w1_tape P HP1) as Wt. pose proof (w1_Gw P HP1 Hu) as Wg.
  assert (B9 : R k (12 + j) < cnt sl) by (apply R_lt; [exact Hk|lia]). assert (S9 : sz sl (R k (12 + j)) = UnruhGWithInputBytes P).
  { rewrite R_sz by lia. unfold kind_size. destruct (lt3_cases j Hj) as [->|[->| ->]]; reflexivity. }
  assert (S0 : sz sl (R k j) = sB) by (rewrite R_sz by lia; unfold kind_size; rewrite (proj2 (Nat.ltb_lt j 3) Hj); reflexivity).
  assert (S3 : sz sl (R k (3 + j)) = aB) by (rewrite R_sz by lia; unfold kind_size; destruct (lt3_cases j Hj) as [->|[->| ->]]; reflexivity).
  assert (L0 : length (c (R k j)) = sB) by (rewrite <- S0; apply (heap_len _ _ _ _ _ _ H), R_lt; [exact Hk|lia]).
  assert (L3 : length (c (R k (3 + j))) = aB) by (rewrite <- S3; apply (heap_len _ _ _ _ _ _ H), R_lt; [exact Hk|lia]).
  set (l := [[qr]; []; []; [(fst ps, snd ps + (3 * k + j) * seedSizeBytes P)]; [q (R k j); q (R k (3 + j)); q (R k (6 + j))]; [q (R k (12 + j))]] : list (list ptr)).
  pose proof (hash_len Es P HE) as Hl. pose proof (hash_bytes Es P HE) as Hb.
  assert (Gd : digestSizeBytes P <= G_bytes P j) by (unfold G_bytes; destruct (j =? 2); lia).
  assert (Gs : G_bytes P j <= sz sl (R k (12 + j))) by (rewrite S9, Wg; unfold G_bytes; destruct (j =? 2); lia).
  unfold call_G. apply (h_leaves n0 m0 U sl _ _ _ l _ c (R k (12 + j)) (G_val Es P j (s j) (vw c j))); cbn [iv dv pv mm nx ct].
  - unfold l. cbn [pargevals pargeval pevals peval ieval]. rewrite (rv4 _ _ _ Hv 9), (rv10 _ _ _ Hv), (rv1 _ _ _ Hv), (rv2 _ _ _ Hv), (rv3 _ _ _ Hv), (rv15 _ _ _ Hv Hu), E9 by lia.
    rewrite (for3_nth (fun j => (fst ps, snd ps + (3 * k + j) * seedSizeBytes P))), !for3_nth by exact Hj. reflexivity.
  - change (mkState (args 0 []) (args 0%N []) (args [] l) m n0 u) with (zst l m u).
    assert (Off : forall i x n2, x < 9 -> n2 = sz sl (R k x) -> nth_error [q (R k j); q (R k (3 + j)); q (R k (6 + j))] i = Some (q (R k x)) ->
      CodeHashUsesSpec.holds_off (q (R k (12 + j))) (G_bytes P j) (zst l m u) 4 i n2 (c (R k x))).
    { intros i x n2 Hx -> Hn. apply (z_off l m u c (R k (12 + j)) (G_bytes P j)); auto; [apply R_lt; [exact Hk|lia]|lia|apply (kind_short m); [exact H|lia]]. }
    destruct (G_code U HU E P (zst l m u) qr (q (R k (12 + j))) j (s j) (vw c j) (zeros (G_bytes P j)) Gd) as (_ & z' & t & R1 & R2).
    + apply (z_consts qr l m u c); auto.
    + apply (z_room qr l m u c); auto.
    + apply (z_seed l m u c); auto.
    + intros _. apply (Off 0 j); [lia|auto|reflexivity].
    + apply (Off 1 (3 + j)); [lia|auto|reflexivity].
    + rewrite length_zeros. auto.
    + exists z', t. split; [exact R1|]. split.
      * cbn [vw v_inputShare v_communicatedBits v_outputShare] in R2. unfold G_val, hash. cbn [xof with_shake prefix_bytes HASH_PREFIX_NONE HASH_PREFIX_5 concat app vw v_inputShare v_communicatedBits v_outputShare].
        rewrite !app_nil_r. rewrite !firstn_all2 in R2 by (rewrite ?s_len by exact Hj; lia). exact R2.
      * intros m' u' Hm'. cbn [copy_back]. apply (HQ m' u'), Hm'.
  - exact B9.
  - unfold G_val. rewrite Hl. exact Gs.
  - apply Hb.
  - exact H.
Qed.

(** ** The shares of the first two parties *)
Definition others (P0 : nat -> Prop) (c c' : nat -> bytes) : Prop := forall i, ~ P0 i -> c' i = c i.

Lemma sz_tmp : sz sl 0 = Nat.max (9 * sB) (sB + aB).
Proof. reflexivity. Qed.
Lemma sz_tape j : j < 3 -> sz sl (1 + j) = 2 * aB.
Proof. intros Hj. destruct (lt3_cases j Hj) as [->|[->| ->]]; reflexivity. Qed.
Lemma sz_in j : j < 3 -> sz sl (R k j) = sB.
Proof. intros Hj. pose proof per_12. rewrite R_sz by lia. unfold kind_size. rewrite (proj2 (Nat.ltb_lt j 3) Hj). reflexivity. Qed.
Lemma sz_comm j : j < 3 -> sz sl (R k (3 + j)) = aB.
Proof. intros Hj. pose proof per_12. rewrite R_sz by lia. unfold kind_size. destruct (lt3_cases j Hj) as [->|[->| ->]]; reflexivity. Qed.
Lemma sz_out j : j < 3 -> sz sl (R k (6 + j)) = sB.
Proof. intros Hj. pose proof per_12. rewrite R_sz by lia. unfold kind_size. destruct (lt3_cases j Hj) as [->|[->| ->]]; reflexivity. Qed.
Lemma in_lt j : j < 12 -> R k j < cnt sl.
Proof. intros Hj. pose proof per_12. apply R_lt; [exact Hk|lia]. Qed.
Lemma R_ge j : 4 <= R k j.
Proof. unfold round_at. lia. Qed.
Lemma sB_pos : 0 < sB /\ 0 < aB.
Proof.
  pose proof (wf_sB P HP) as A. pose proof (wf_aB P HP) as B. pose proof (wf_n P HP). pose proof (wf_m0 P HP). pose proof (wf_r P HP). unfold sB, aB. rewrite A, B.
  pose proof (numBytes_spec (stateSizeBits P)). pose proof (numBytes_spec (3 * numSboxes P * numRounds P)). assert (0 < 3 * numSboxes P * numRounds P) by nia. lia.
Qed.

Lemma h_share j s' iv1 dv1 pv1 m u c (Q : state -> Prop) : rv ps k pv1 -> j < 2 -> hp m c ->
  (forall m' u' iv' c', hp m' c' -> c' (R k j) = party_in Es P (s j) salt k j -> firstn aB (c' (1 + j)) = party_tape Es P (s j) salt k j ->
     others (fun i => i = 0 \/ i = 1 + j \/ i = R k j) c c' -> runs U s' (mkState iv' dv1 pv1 m' n0 u') Q) ->
  runs U (c_share P k j s') (mkState iv1 dv1 pv1 m n0 u) Q.
Proof.
  intros Hv Hj H HQ. unfold c_share. fold sB aB. pose proof sB_pos as [Ps Pa]. assert (Hj3 : j < 3) by lia. pose proof sz_tmp as Z0. pose proof (sz_tape j Hj3) as Zt. pose proof (sz_in j Hj3) as Zi.
  assert (B0 : 0 < cnt sl) by (apply lo_lt; lia). assert (Bt : 1 + j < cnt sl) by (apply lo_lt; lia). assert (Bi : R k j < cnt sl) by (apply in_lt; lia). pose proof (R_ge j) as Rg.
  assert (E5 : pv1 5 = [q 0]) by (rewrite (rv4 _ _ _ Hv 5) by lia; apply (sc_tmp _ _ _ _ _ _ _ _ _ HM)).
  assert (Epl : party_len P j = sB + aB) by (unfold party_len; rewrite (proj2 (Nat.ltb_lt j 2) Hj); reflexivity).
  apply runs_seq. apply (h_tape j _ 0 _ _ _ _ _ _ c); [exact Hv|exact Hj3|csimpl; rewrite E5; reflexivity|exact B0|rewrite Z0; lia|rewrite Epl; reflexivity|exact H|]. intros m1 u1 H1.
  set (d := party_bytes Es P (s j) salt k j) in *. assert (Ld : length d = sB + aB) by (unfold d; rewrite (length_party_bytes Es P HE); exact Epl).
  set (c1 := cset c 0 _) in H1. assert (C0 : firstn (sB + aB) (c1 0) = d).
  { unfold c1. rewrite cset_eq. rewrite <- Ld. apply firstn_blit0. reflexivity. }
  unfold or_fail. eapply (runs_if _ _ false); [reflexivity|]. cbv beta iota.
  apply runs_seq. eapply (h_memcpy n0 m0 U sl _ _ (IC sB) _ c1 (R k j) 0); csimpl; [rewrite (rv1 _ _ _ Hv); apply (for3_nth (fun j => q (R k j))), Hj3|rewrite E5; reflexivity|exact Bi|exact B0|lia|exact Zi|rewrite Z0; lia|exact Ps|exact H1|].
  intros m2 H2. unfold set_mm. cbn [iv dv pv mm nx ct]. set (c2 := cset c1 (R k j) _) in H2.
  assert (C2 : c2 (R k j) = firstn sB d). { unfold c2. rewrite cset_eq. rewrite <- C0, firstn_firstn. f_equal. lia. }
  apply runs_seq. eapply (h_zeroTrailingBits n0 m0 U sl _ _ _ c2 (R k j) (party_in Es P (s j) salt k j)); csimpl; [rewrite (rv1 _ _ _ Hv); apply (for3_nth (fun j => q (R k j))), Hj3|exact Bi| |exact H2| |].
  { rewrite Zi. unfold sB. rewrite (wf_sB P HP). auto. }
  { rewrite C2. unfold party_in. fold d sB. apply (clear_tail_spec P HP1). rewrite firstn_length. fold sB. lia. }
  intros m3 H3. unfold set_mm. cbn [iv dv pv mm nx ct]. set (c3 := cset c2 (R k j) _) in H3.
  assert (C3 : c3 0 = c1 0) by (unfold c3, c2; rewrite !cset_neq by lia; reflexivity).
  apply runs_seq. eapply (h_memcpy_off n0 m0 U sl _ _ (IC aB) _ c3 (1 + j) 0 sB); csimpl; [rewrite (rv0 _ _ _ Hv); apply (for3_nth (fun j => q (1 + j))), Hj3|rewrite E5; cbn [nth_error]; change (reg sl 0) with (q 0); destruct (q 0); reflexivity|exact Bt|exact B0|lia|rewrite Zt; lia|rewrite Z0; lia|exact Pa|exact H3|].
  intros m4 H4. unfold set_mm. cbn [iv dv pv mm nx ct]. set (c4 := cset c3 (1 + j) _) in H4.
  apply (HQ m4 u1 _ c4 H4).
  - unfold c4, c3. rewrite cset_neq by lia. apply cset_eq.
  - unfold c4. rewrite cset_eq, C3.
    assert (X : firstn aB (skipn sB (c1 0)) = party_tape Es P (s j) salt k j) by (apply (skipn_tape Es P (s j) salt k j); [exact Hj|rewrite Epl; exact C0]).
    rewrite X. apply firstn_blit0. symmetry. apply (length_party_tape Es P HE).
  - intros i Hi. unfold c4, c3, c2, c1. rewrite !cset_neq by (intros ->; apply Hi; auto). reflexivity.
Qed.

(** ** The computation *)
Definition idx (x : nat) : nat := if x =? 0 then 0 else R k (2 + x).
Lemma idx_lt x : x < 7 -> idx x < cnt sl.
Proof. intros H. unfold idx. destruct (x =? 0); [apply lo_lt; lia|apply in_lt; lia]. Qed.
Lemma idx_inj x y : idx x = idx y -> x = y.
Proof. unfold idx, round_at. destruct (Nat.eqb_spec x 0), (Nat.eqb_spec y 0); lia. Qed.
Lemma idx_cases x : x < 7 -> idx x = 0 \/ exists j, j < 3 /\ (idx x = R k (3 + j) \/ idx x = R k (6 + j)).
Proof.
  intros H. unfold idx. destruct (Nat.eqb_spec x 0); [left; reflexivity|right]. destruct (Nat.lt_ge_cases x 4) as [Hx|Hx].
  - exists (x - 1). split; [lia|]. left. f_equal. lia.
  - exists (x - 4). split; [lia|]. right. f_equal. lia.
Qed.
Definition vs0 (c : nat -> bytes) (j : nat) : view := mkView (c (R k j)) (zeros aB) (zeros sB).
Let ws (c : nat -> bytes) := mpc_writes P (vs0 c) (q 0) (fun j => q (R k (3 + j))) (fun j => q (R k (6 + j))).
Lemma ws_nth c x p l : nth_error (ws c) x = Some (p, l) -> x < 7 /\ p = q (idx x) /\ l <= sz sl (idx x).
Proof.
  intros H. assert (Hx : x < 7) by (apply (nth_error_Some (ws c)); congruence). split; [exact Hx|].
  pose proof (w1_tmp P HP1) as Wt. pose proof (sz_comm 0 ltac:(lia)). pose proof (sz_comm 1 ltac:(lia)). pose proof (sz_comm 2 ltac:(lia)).
  pose proof (sz_out 0 ltac:(lia)). pose proof (sz_out 1 ltac:(lia)). pose proof (sz_out 2 ltac:(lia)). pose proof sz_tmp. unfold ws, mpc_writes in H. cbn [vs0 v_communicatedBits] in H. rewrite !length_zeros in H. fold W sB aB in Wt. fold W sB in H. cbn [Nat.add] in H, H0, H1, H2, H3, H4, H5.
  do 7 (destruct x as [|x]; [cbn [nth_error] in H; injection H as <- <-; split; [reflexivity|unfold idx; cbn [Nat.eqb Nat.add]; lia]|]). lia.
Qed.
Lemma ws_in c p l : In (p, l) (ws c) -> exists x, x < 7 /\ p = q (idx x) /\ l <= sz sl (idx x).
Proof. intros H. apply In_nth_error in H. destruct H as (x & H). exists x. apply (ws_nth _ _ _ _ H). Qed.

Lemma ws_ro y c m p l : hp m c -> nx y = n0 -> mm y = m -> ro p l -> bytes_ok l -> reads y (ws c) p l.
Proof.
  intros H En Em Hr Hb. unfold reads. rewrite En, Em. split; [exact (heap_ro _ _ _ _ _ _ _ _ H Hr)|]. split; [exact Hb|].
  intros p' l' Hp. destruct (ws_in _ _ _ Hp) as (x & Hx & -> & Hl). apply (disj_sub _ _ _ _ _ _ (proj2 Hr _ (idx_lt x Hx))); auto.
Qed.
Lemma ws_reg y c m i : hp m c -> nx y = n0 -> mm y = m -> i < cnt sl -> (forall x, x < 7 -> idx x <> i) -> reads y (ws c) (q i) (c i).
Proof.
  intros H En Em Hi Hne. unfold reads. rewrite En, Em. split; [apply (heap_pts _ _ _ _ _ _ H i Hi)|]. split; [apply (heap_ok _ _ _ _ _ _ H i Hi)|].
  intros p' l' Hp. destruct (ws_in _ _ _ Hp) as (x & Hx & -> & Hl). apply (disj_sub _ _ _ _ _ _ (heap_disj _ _ _ _ _ _ _ _ H (idx_lt x Hx) Hi (Hne x Hx))); [exact Hl|].
  rewrite (heap_len _ _ _ _ _ _ H i Hi). auto.
Qed.

Lemma h_mpc tp iv1 dv1 pv1 m u c (Q : state -> Prop) : rv ps k pv1 -> iv1 0 = 0 -> hp m c ->
  (forall j, j < 3 -> firstn aB (c (1 + j)) = tp j /\ length (tp j) = aB) ->
  (forall j, j < 3 -> c (R k (3 + j)) = zeros aB /\ c (R k (6 + j)) = zeros sB) ->
  let V := views_of Es P (fun j => c (R k j)) tp pt in
  (forall iv' m' u' c', hp m' c' -> (forall j, j < 3 -> c' (R k (3 + j)) = v_communicatedBits (tget V j) /\ c' (R k (6 + j)) = v_outputShare (tget V j)) ->
     others (fun i => exists x, x < 7 /\ i = idx x) c c' -> Q (mkState iv' dv1 pv1 m' n0 u')) ->
  runs U (c_mpc_LowMC P 0 1 2 3 (PV 4 (IC 0)) (PV 5 (IC 0)) 6 7 8 0) (mkState iv1 dv1 pv1 m n0 u) Q.
Proof.
  intros Hv I0 H Ht Hz V HQ. set (y := mkState iv1 dv1 pv1 m n0 u). pose proof (w1_tmp P HP1) as Wt. fold W sB aB in Wt. pose proof sz_tmp as Z0.
  pose proof (wf_aB P HP) as WaB. pose proof (numBytes_spec (3 * numSboxes P * numRounds P)) as NB. rewrite <- WaB in NB. fold aB in NB.
  pose proof (wf_sB P HP) as WsB. pose proof (numBytes_spec (stateSizeBits P)) as NS. rewrite <- WsB in NS. fold sB in NS.
  destruct (sc_align _ _ _ _ _ _ _ _ _ HM) as [A0 Av]. destruct (sc_pt _ _ _ _ _ _ _ _ _ HM) as (qp & E4 & Rp & Ap & Lp).
  assert (B0 : 0 < cnt sl) by (apply lo_lt; lia).
  assert (Li : forall j, j < 3 -> in_wf P (c (R k j))).
  { intros j Hj. split; [rewrite (heap_len _ _ _ _ _ _ H) by (apply in_lt; lia); apply sz_in, Hj|apply (heap_ok _ _ _ _ _ _ H), in_lt; lia]. }
  assert (HM1 : mpc_call Es P y (fun j => c (1 + j)) (vs0 c) pt (q 0) (fun j => q (R k (3 + j))) (fun j => q (R k (6 + j)))).
  { assert (Tab : forall a n f, 6 <= a <= 8 -> constants st a n f (sign_writes P q) -> constants y a n f (ws c)).
    { intros a n f Ha Hc i Hi. destruct (Hc i Hi) as (p & A & B & C). exists p. split; [cbn [y pv]; rewrite (rv4 _ _ _ Hv a) by lia; exact A|]. split; [|exact C].
      apply (ws_ro y c m); auto; [apply reads_ro, B|apply B]. }
    split; cbn [y iv pv]; fold (ws c).
    - exact I0.
    - exists (fun j => q (1 + j)). split; [apply (rv0 _ _ _ Hv)|]. intros j Hj. split.
      + apply (ws_reg y c m); auto; [apply lo_lt; lia|]. intros x Hx. unfold idx. destruct (x =? 0); [lia|]. pose proof (R_ge (2 + x)). lia.
      + rewrite (heap_len _ _ _ _ _ _ H) by (apply lo_lt; lia). rewrite (sz_tape j Hj). lia.
    - exists (fun j => q (R k j)). split; [apply (rv1 _ _ _ Hv)|]. intros j Hj. cbn [vs0 v_inputShare]. split; [|split].
      + apply (ws_reg y c m); auto; [apply in_lt; lia|]. intros x Hx. unfold idx. pose proof (R_ge j). destruct (Nat.eqb_spec x 0); lia.
      + apply Av; [exact Hk|lia].
      + rewrite (proj1 (Li j Hj)). fold sB. lia.
    - split; [apply (rv2 _ _ _ Hv)|]. intros j Hj. cbn [vs0 v_communicatedBits]. split; [|rewrite length_zeros; lia]. destruct (Hz j Hj) as [Hz1 _]. unfold CodeZkbSpec.holds. cbn [nx mm]. rewrite <- Hz1.
      split; [apply (heap_pts _ _ _ _ _ _ H), in_lt; lia|apply (heap_ok _ _ _ _ _ _ H), in_lt; lia].
    - split; [apply (rv3 _ _ _ Hv)|]. intros j Hj. cbn [vs0 v_outputShare]. split; [|apply length_zeros]. destruct (Hz j Hj) as [_ Hz1]. unfold CodeZkbSpec.holds. cbn [nx mm]. rewrite <- Hz1.
      split; [apply (heap_pts _ _ _ _ _ _ H), in_lt; lia|apply (heap_ok _ _ _ _ _ _ H), in_lt; lia].
    - exists qp. split; [rewrite (rv4 _ _ _ Hv 4) by lia; exact E4|]. split; [|split; [exact Ap|exact Lp]]. apply (ws_ro y c m); auto; [apply reads_ro, Rp|apply Rp].
    - split; [rewrite (rv4 _ _ _ Hv 5) by lia; apply (sc_tmp _ _ _ _ _ _ _ _ _ HM)|]. split; [exact A0|]. exists (firstn (24 * W) (c 0)). cbn [nx mm].
      split; [apply pts_firstn, (heap_pts _ _ _ _ _ _ H 0 B0)|]. rewrite firstn_length, (heap_len _ _ _ _ _ _ H 0 B0), Z0. lia.
    - intros i j p1 k1 p2 k2 H1 H2 Hne. destruct (ws_nth _ _ _ _ H1) as (X1 & -> & Y1). destruct (ws_nth _ _ _ _ H2) as (X2 & -> & Y2).
      apply (disj_sub _ _ _ _ _ _ (heap_disj _ _ _ _ _ _ _ _ H (idx_lt i X1) (idx_lt j X2) ltac:(intros X; apply Hne, idx_inj, X))); assumption.
    - apply Tab; [lia|]. apply (sc_K _ _ _ _ _ _ _ _ _ HM).
    - apply Tab; [lia|]. apply (sc_L _ _ _ _ _ _ _ _ _ HM).
    - apply Tab; [lia|]. apply (sc_C _ _ _ _ _ _ _ _ _ HM). }
  apply (runs_mpc_LowMC U HU Es P HP HE HCs y (fun j => c (1 + j)) (vs0 c) pt (q 0) _ _ HM1). intros m' u' V' HV Hp Hc (l & Pl & Ll & Bl). fold W in Ll. cbn [y nx mm iv dv pv] in *.
  fold (ws c) in Hc.
  destruct Rp as (_ & Bp & _).
  assert (EV : V' = V).
  { pose proof (mpc_LowMC_eq Es P HP1 HE HCs (fun j => c (R k j)) tp pt (c 1, c 2, c 3) (24 * W) ltac:(auto) ltac:(fold W; lia) Bp Li ltac:(apply Ht)) as X. cbv zeta in X.
    change (mpc_LowMC Es P (c 1, c 2, c 3) (vs0 c 0, vs0 c 1, vs0 c 2) pt (24 * W) = Ok V') in HV.
    assert (HT : forall j, j < 3 -> tape_is P (tget (c 1, c 2, c 3) j) (tp j)); [|specialize (X HT); assert (Y : Ok V' = Ok V) by (rewrite <- HV; exact X); injection Y as ->; reflexivity].
    intros j Hj. destruct (Ht j Hj) as [T1 T2]. destruct (lt3_cases j Hj) as [->|[->| ->]]; apply (tape_is_firstn P HP1); assumption. }
  rewrite EV in Hp. clear HV EV V'.
  pose proof (views_of_spec Es P HP1 HE HCs (fun j => c (R k j)) tp pt ltac:(fold W; lia) Bp Li ltac:(apply Ht)) as HV. fold V in HV.
  set (c' := fun i => if i =? 0 then l ++ skipn (24 * W) (c 0) else if (R k 3 <=? i) && (i <? R k 6) then v_communicatedBits (tget V (i - R k 3)) else
    if (R k 6 <=? i) && (i <? R k 9) then v_outputShare (tget V (i - R k 6)) else c i).
  assert (C3 : forall j, j < 3 -> c' (R k (3 + j)) = v_communicatedBits (tget V j)).
  { intros j Hj. unfold c', round_at. rewrite (proj2 (Nat.eqb_neq _ 0)) by lia. rewrite (proj2 (Nat.leb_le _ _)), (proj2 (Nat.ltb_lt _ _)) by lia. cbn [andb]. do 2 f_equal. lia. }
  assert (C6 : forall j, j < 3 -> c' (R k (6 + j)) = v_outputShare (tget V j)).
  { intros j Hj. unfold c', round_at. rewrite (proj2 (Nat.eqb_neq _ 0)) by lia. rewrite (proj2 (Nat.ltb_ge _ (4 + per_round P * k + 6))) by lia. rewrite andb_false_r.
    rewrite (proj2 (Nat.leb_le _ _)), (proj2 (Nat.ltb_lt _ _)) by lia. cbn [andb]. do 2 f_equal. lia. }
  assert (Co : forall i, i <> 0 -> (i < R k 3 \/ R k 9 <= i) -> c' i = c i).
  { intros i Hi Hr. unfold c'. rewrite (proj2 (Nat.eqb_neq i 0) Hi). replace ((R k 3 <=? i) && (i <? R k 6)) with false by lia. replace ((R k 6 <=? i) && (i <? R k 9)) with false by lia. reflexivity. }
  apply (HQ _ m' u' c').
  - apply (heap_multi n0 m0 sl n0 m m' c c' (ws c) H Hc).
    + intros p k' Hw. destruct (ws_in _ _ _ Hw) as (x & Hx & -> & Hl). exists (idx x). split; [apply idx_lt, Hx|]. cbn [sl reg]. split; [reflexivity|]. cbn [sl sz] in Hl |- *. lia.
    + intros i Hi. destruct (Nat.eq_dec i 0) as [->|Hi0].
      { pose proof (heap_pts _ _ _ _ _ _ H 0 B0) as P0'. pose proof (heap_len _ _ _ _ _ _ H 0 B0) as L0'. pose proof (heap_ok _ _ _ _ _ _ H 0 B0) as K0'. unfold c'. cbn [Nat.eqb]. rewrite <- (firstn_skipn (24 * W) (c 0)) in K0'. apply bytes_ok_app in K0'. split; [|split].
        - apply pts_app. split; [exact Pl|]. split; [|apply Pl]. intros _. rewrite Ll.
          assert (Q1 : pts n0 m (fst (q 0), snd (q 0) + 24 * W) (skipn (24 * W) (c 0))).
          { pose proof (pts_sub _ _ _ _ (24 * W) (length (c 0) - 24 * W) P0' ltac:(lia)) as X. rewrite firstn_all2 in X by (rewrite skipn_length; lia). exact X. }
          apply (pts_chg _ _ _ _ _ _ Hc Q1). rewrite skipn_length. intros p l' Hw. apply In_nth_error in Hw. destruct Hw as (x & Hw). destruct (ws_nth _ _ _ _ Hw) as (Hx & -> & Hl).
          destruct x as [|x]; [cbn in Hw; injection Hw as <-; right; left; cbn [fst snd]; unfold idx; cbn [Nat.eqb]; fold W; lia|].
          assert (Hne : idx (S x) <> 0) by (unfold idx; cbn [Nat.eqb]; pose proof (R_ge (2 + S x)); lia).
          pose proof (heap_disj _ _ _ _ _ _ _ _ H (idx_lt _ Hx) B0 Hne) as D. cbn [sl reg] in D. unfold disj in *. cbn [fst snd]. lia.
        - rewrite app_length, skipn_length. lia.
        - apply bytes_ok_app. split; [exact Bl|apply K0']. }
      destruct (Nat.lt_ge_cases i (R k 3)) as [H3|H3]; [|destruct (Nat.lt_ge_cases i (R k 9)) as [H9|H9]].
      * rewrite Co by lia. split; [|split; [apply (heap_len _ _ _ _ _ _ H i Hi)|apply (heap_ok _ _ _ _ _ _ H i Hi)]]. apply (pts_chg _ _ _ _ _ _ Hc (heap_pts _ _ _ _ _ _ H i Hi)).
        rewrite (heap_len _ _ _ _ _ _ H i Hi). intros p l' Hw. destruct (ws_in _ _ _ Hw) as (x & Hx & -> & Hl). apply (disj_sub _ _ _ _ _ _ (heap_disj _ _ _ _ _ _ _ _ H (idx_lt _ Hx) Hi ltac:(unfold idx; destruct (Nat.eqb_spec x 0); lia))); auto.
      * assert (Hj : exists j, j < 3 /\ (i = R k (3 + j) \/ i = R k (6 + j))).
        { destruct (Nat.lt_ge_cases i (R k 6)); [exists (i - R k 3)|exists (i - R k 6)]; lia. }
        destruct Hj as (j & Hj & [-> | ->]); destruct (HV j Hj) as (_ & V1 & V2 & _ & (V3 & V4 & _) & _); destruct (Hp j Hj) as (Q1 & Q2 & _).
        -- rewrite C3 by exact Hj. split; [exact Q1|]. split; [rewrite (sz_comm j Hj); exact V1|exact V2].
        -- rewrite C6 by exact Hj. split; [exact Q2|]. split; [rewrite (sz_out j Hj); exact V3|exact V4].
      * rewrite Co by lia. split; [|split; [apply (heap_len _ _ _ _ _ _ H i Hi)|apply (heap_ok _ _ _ _ _ _ H i Hi)]]. apply (pts_chg _ _ _ _ _ _ Hc (heap_pts _ _ _ _ _ _ H i Hi)).
        rewrite (heap_len _ _ _ _ _ _ H i Hi). intros p l' Hw. destruct (ws_in _ _ _ Hw) as (x & Hx & -> & Hl). apply (disj_sub _ _ _ _ _ _ (heap_disj _ _ _ _ _ _ _ _ H (idx_lt _ Hx) Hi ltac:(unfold idx; destruct (Nat.eqb_spec x 0); lia))); auto.
  - intros j Hj. split; [apply C3, Hj|apply C6, Hj].
  - intros i Hi. destruct (Nat.eq_dec i 0) as [->|Hi0]; [exfalso; apply Hi; exists 0; split; [lia|reflexivity]|]. apply Co; [exact Hi0|].
    destruct (Nat.lt_ge_cases i (R k 3)) as [H3|H3]; [left; exact H3|right]. destruct (Nat.lt_ge_cases i (R k 9)) as [H9|H9]; [|exact H9]. exfalso. apply Hi. exists (i - R k 2). unfold idx.
    destruct (Nat.eqb_spec (i - R k 2) 0); lia.
Qed.

Lemma views_of_ext ins ins' tp tp' : (forall j, j < 3 -> ins j = ins' j) -> (forall j, j < 3 -> tp j = tp' j) -> views_of Es P ins tp pt = views_of Es P ins' tp' pt.
Proof.
  intros A B. unfold views_of. rewrite (A 0), (A 1), (A 2), (B 0), (B 1), (B 2) by lia. reflexivity.
Qed.
Lemma ro_neq m c p l i : hp m c -> ro p l -> i < cnt sl -> 0 < sz sl i -> 0 < length l -> p <> reg sl i.
Proof. intros H Hr Hi Hs Hl ->. pose proof (proj2 Hr i Hi) as D. unfold disj in D. lia. Qed.
Lemma reg_neq m c i j : hp m c -> i < cnt sl -> j < cnt sl -> i <> j -> 0 < sz sl i -> 0 < sz sl j -> reg sl i <> reg sl j.
Proof. intros H Hi Hj Hne Si Sj Eq. pose proof (heap_disj _ _ _ _ _ _ _ _ H Hi Hj Hne) as D. rewrite Eq in D. unfold disj in D. lia. Qed.

Let sin (j : nat) := sr_in Es P s salt k sk j.
Let sv := sr_views Es P s salt k sk pt.
Definition held (c : nat -> bytes) : Prop := forall j, j < 3 ->
  c (R k j) = v_inputShare (tget sv j) /\ c (R k (3 + j)) = v_communicatedBits (tget sv j) /\ c (R k (6 + j)) = v_outputShare (tget sv j).

Lemma sk_facts : exists qk, pv st 12 = [qk] /\ ro qk sk /\ bytes_ok sk /\ aligned qk /\ sB <= length sk.
Proof. destruct (sc_sk _ _ _ _ _ _ _ _ _ HM) as (p & A & B & C & D). exists p. split; [exact A|]. split; [apply reads_ro, B|]. split; [apply B|]. auto. Qed.
Lemma pub_facts : exists qk, pv st 13 = [qk] /\ ro qk pub /\ bytes_ok pub /\ sB <= length pub.
Proof. destruct (sc_pub _ _ _ _ _ _ _ _ _ HM) as (p & A & B & C). exists p. split; [exact A|]. split; [apply reads_ro, B|]. split; [apply B|]. auto. Qed.
Lemma pt_facts : bytes_ok pt /\ length pt = 4 * W.
Proof. destruct (sc_pt _ _ _ _ _ _ _ _ _ HM) as (p & _ & B & _ & D). split; [apply B|exact D]. Qed.

Lemma h_simulate s' iv1 dv1 pv1 m u c (Q : state -> Prop) : rv ps k pv1 -> hp m c ->
  (forall j, j < 2 -> c (R k j) = party_in Es P (s j) salt k j /\ firstn aB (c (1 + j)) = party_tape Es P (s j) salt k j) ->
  (forall j, j < 3 -> c (R k (3 + j)) = zeros aB /\ c (R k (6 + j)) = zeros sB) ->
  (forall iv' d pv' m' u' c', rv ps k pv' -> hp m' c' -> held c' -> others (fun i => i < 4 \/ exists j, j < 9 /\ i = R k j) c c' ->
     (N.eqb d 0 = true <-> lowmc_relation Es P sk pt pub) -> runs U s' (mkState iv' (upd dv1 0 d) pv' m' n0 u') Q) ->
  runs U (c_simulate P k s') (mkState iv1 dv1 pv1 m n0 u) Q.
Proof.
  intros Hv H Hsh Hz HQ. unfold c_simulate. fold sB aB. pose proof sB_pos as [Ps Pa]. pose proof (sz_tape 2 ltac:(lia)) as Zt. pose proof (sz_in 2 ltac:(lia)) as Zi. cbn [Nat.add] in Zt.
  assert (Bt : 3 < cnt sl) by (apply lo_lt; lia). assert (Bi : forall j, j < 12 -> R k j < cnt sl) by (intros j Hj; apply in_lt, Hj).
  assert (Rg : 4 <= R k 0) by apply R_ge. destruct sk_facts as (qk & E12 & Rk & Bk & Ak & Lk). destruct pub_facts as (qb & E13 & Rb & Bb & Lb). destruct pt_facts as [Bpt Lpt].
  destruct (sc_align _ _ _ _ _ _ _ _ _ HM) as [_ Av].
  assert (Sin : forall j, j < 3 -> in_wf P (sin j)) by (intros j Hj; apply (sr_in_wf Es P HP1 HE); auto).
  apply runs_seq. apply (h_tape 2 _ 3 _ _ _ _ _ _ c); [exact Hv|lia|csimpl; rewrite (rv0 _ _ _ Hv); reflexivity|exact Bt|rewrite Zt; lia|reflexivity|exact H|]. intros m1 u1 H1.
  set (c1 := cset c 3 _) in H1. assert (T2 : firstn aB (c1 3) = party_tape Es P (s 2) salt k 2).
  { unfold c1. rewrite cset_eq. change (party_tape Es P (s 2) salt k 2) with (party_bytes Es P (s 2) salt k 2). apply firstn_blit0. symmetry. apply (length_party_bytes Es P HE). }
  assert (C1 : forall i, i <> 3 -> c1 i = c i) by (intros i Hi; unfold c1; apply cset_neq, Hi).
  unfold or_fail. eapply runs_if; [csimpl; reflexivity|]. cbv iota.
  assert (I1 : forall j, j < 2 -> c1 (R k j) = sin j).
  { intros j Hj. rewrite C1 by lia. unfold sin, sr_in. rewrite (proj2 (Nat.ltb_lt j 2) Hj). apply Hsh, Hj. }
  assert (Rin : forall j, j < 3 -> 0 < sz sl (R k j)) by (intros j Hj; rewrite sz_in by exact Hj; lia).
  apply runs_seq. eapply (h_xor_three n0 m0 U sl _ _ _ _ (IC sB) _ c1 (R k 2) qk (q (R k 0)) (q (R k 1)) sk (c1 (R k 0)) (c1 (R k 1))); csimpl.
  { rewrite (rv1 _ _ _ Hv). reflexivity. }
  { rewrite (rv11 _ _ _ Hv 12), E12 by lia. reflexivity. }
  { rewrite (rv1 _ _ _ Hv). reflexivity. }
  { rewrite (rv1 _ _ _ Hv). reflexivity. }
  { apply Bi. lia. }
  { rewrite Zi. auto. }
  { left. exact Rk. }
  { right. exists (R k 0). split; [apply Bi; lia|]. auto. }
  { right. exists (R k 1). split; [apply Bi; lia|]. auto. }
  { exact Lk. }
  { rewrite I1 by lia. rewrite (proj1 (Sin 0 ltac:(lia))). auto. }
  { rewrite I1 by lia. rewrite (proj1 (Sin 1 ltac:(lia))). auto. }
  { exact Bk. }
  { apply (heap_ok _ _ _ _ _ _ H1), Bi. lia. }
  { apply (heap_ok _ _ _ _ _ _ H1), Bi. lia. }
  { apply (ro_neq _ _ _ _ _ H Rk); [apply Bi; lia|apply Rin; lia|lia]. }
  { apply (reg_neq _ _ _ _ H1); try (apply Bi; lia); try (apply Rin; lia). lia. }
  { apply (reg_neq _ _ _ _ H1); try (apply Bi; lia); try (apply Rin; lia). lia. }
  { apply Av; [exact Hk|lia]. }
  { exact Ak. }
  { apply Av; [exact Hk|lia]. }
  { apply Av; [exact Hk|lia]. }
  { exact H1. }
  intros m2 H2. unfold set_mm. cbn [iv dv pv mm nx ct]. set (c2 := cset c1 (R k 2) _) in H2.
  assert (I2 : forall j, j < 3 -> c2 (R k j) = sin j).
  { intros j Hj. unfold c2. destruct (Nat.eq_dec j 2) as [->|Hne]; [|rewrite cset_neq by lia; apply I1; lia]. rewrite cset_eq.
    rewrite (I1 0), (I1 1) by lia. destruct (Sin 0 ltac:(lia)) as [L0 _]. destruct (Sin 1 ltac:(lia)) as [L1 _]. fold sB in L0, L1.
    rewrite (firstn_all2 (sin 0)), (firstn_all2 (sin 1)) by lia. apply blit_list_all.
    rewrite (heap_len _ _ _ _ _ _ H1) by (apply Bi; lia). rewrite Zi. symmetry. exact (proj1 (Sin 2 ltac:(lia))). }
  assert (C2 : forall i, i <> 3 -> i <> R k 2 -> c2 i = c i) by (intros i A B; unfold c2; rewrite cset_neq by exact B; apply C1, A).
  apply runs_seq, runs_iset. csimpl. apply runs_seq.
  apply (h_mpc (fun j => party_tape Es P (s j) salt k j) _ _ _ _ _ c2); [exact Hv|reflexivity|exact H2| | |].
  { intros j Hj. split; [|apply (length_party_tape Es P HE)]. destruct (Nat.eq_dec j 2) as [->|Hne]; [cbn [Nat.add]; unfold c2; rewrite cset_neq by lia; exact T2|].
    rewrite C2 by lia. apply Hsh. lia. }
  { intros j Hj. rewrite !C2 by lia. apply Hz, Hj. }
  intros iv3 m3 u3 c3 H3 HV C3.
  assert (EV : views_of Es P (fun j => c2 (R k j)) (fun j => party_tape Es P (s j) salt k j) pt = sv).
  { unfold sv, sr_views. apply views_of_ext; [exact I2|reflexivity]. }
  rewrite EV in HV. clear EV.
  pose proof (sr_views_spec Es P HP1 HE HCs s salt k sk pt Lk Bk ltac:(fold W; lia) Bpt) as VS. fold sv in VS.
  assert (Hh : held c3).
  { intros j Hj. destruct (HV j Hj) as [A B]. split; [|auto]. rewrite C3.
    - rewrite I2 by exact Hj. symmetry. apply VS, Hj.
    - intros (x & Hx & Ex). unfold idx in Ex. destruct (Nat.eqb_spec x 0); lia. }
  assert (Oth : others (fun i => i < 4 \/ exists j, j < 9 /\ i = R k j) c c3).
  { intros i Hi. rewrite C3.
    - apply C2; [intros ->; apply Hi; left; lia|intros ->; apply Hi; right; exists 2; split; [lia|reflexivity]].
    - intros (x & Hx & Ex). apply Hi. unfold idx in Ex. destruct (Nat.eqb_spec x 0); [left; lia|right; exists (2 + x); split; [lia|exact Ex]]. }
  assert (O3 : forall j, j < 3 -> c3 (R k (6 + j)) = sr_out Es P s salt k sk pt j) by (intros j Hj; apply HV, Hj).
  assert (Lo : forall j, j < 3 -> in_wf P (sr_out Es P s salt k sk pt j)) by (intros j Hj; apply (sr_out_share Es P HP1 HE HCs s salt k sk pt j Lk Bk ltac:(fold W; lia) Bpt Hj)).
  assert (sB32 : sB <= 32).
  { pose proof (wf_sB P HP) as WsB. pose proof (numBytes_spec (stateSizeBits P)) as NS. rewrite <- WsB in NS. fold sB in NS. pose proof (wf_W2 P HP). pose proof (wf_W3 P HP). lia. }
  assert (Fq : forall i, i < cnt sl -> fst (reg sl i) < n0) by (intros i Hi; apply (lay_in _ _ _ (heap_lay _ _ _ _ _ _ H3) i Hi)).
  apply runs_seq. apply (h_loc n0 m0 U sl 16 (IC LOWMC_MAX_STATE_BYTES) _ (mkState iv3 dv1 pv1 m3 n0 u3) c3); [exact HU|exact H3|]. cbn [iv dv pv mm nx ct ieval]. intros b Lbb Bbb.
  change LOWMC_MAX_STATE_BYTES with 64 in *. pose proof (heap_push _ _ _ _ _ _ b H3 Bbb) as Hb4. rewrite Lbb in Hb4. set (L4 := push sl (n0, 0) 64) in *. set (kt := cnt sl) in *.
  assert (R4 : forall i, i < kt -> reg L4 i = q i) by (intros i Hi; unfold L4, push; cbn [reg]; rewrite upd_neq by (fold kt; lia); reflexivity).
  assert (Rt : reg L4 kt = (n0, 0)) by (unfold L4, push, kt; cbn [reg]; apply upd_eq).
  assert (St : sz L4 kt = 64) by (unfold L4, push, kt; cbn [sz]; apply upd_eq).
  assert (Kt : kt < cnt L4) by (unfold L4, push, kt; cbn [cnt]; lia).
  assert (Cn : cnt L4 = S kt) by reflexivity.
  pose proof (rv_upd1 ps k pv1 [(n0, 0)] Hv) as Hv4. set (pv4 := upd pv1 16 [(n0, 0)]) in *.
  assert (E16 : pv4 16 = [(n0, 0)]) by apply upd_eq.
  apply runs_seq. apply (h_memset0 n0 m0 U L4 _ _ _ (cset c3 kt b) kt); csimpl; [rewrite E16, Rt; reflexivity|exact Kt|rewrite St; reflexivity|rewrite St; lia|exact Hb4|].
  rewrite St. intros m5 H5. unfold set_mm. cbn [iv dv pv mm nx ct]. set (c5 := cset (cset c3 kt b) kt (zeros 64)) in *.
  assert (C5 : forall i, i < kt -> c5 i = c3 i) by (intros i Hi; unfold c5; rewrite !cset_neq by lia; reflexivity).
  assert (B6 : forall j, j < 3 -> R k (6 + j) < kt) by (intros j Hj; apply Bi; lia).
  assert (O5 : forall j, j < 3 -> c5 (R k (6 + j)) = sr_out Es P s salt k sk pt j) by (intros j Hj; rewrite C5 by (apply B6, Hj); apply O3, Hj).
  pose proof (O5 0 ltac:(lia)) as O50. pose proof (O5 1 ltac:(lia)) as O51. pose proof (O5 2 ltac:(lia)) as O52. cbn [Nat.add] in O50, O51, O52.
  assert (N6 : forall j, j < 3 -> q (R k (6 + j)) <> (n0, 0)).
  { intros j Hj Ex. pose proof (Fq (R k (6 + j)) (B6 j Hj)) as X. cbn [sl reg] in X. rewrite Ex in X. cbn [fst] in X. lia. }
  apply runs_seq. eapply (h_xor_three n0 m0 U L4 _ _ _ _ (IC sB) _ c5 kt (q (R k 6)) (q (R k 7)) (q (R k 8)) (c5 (R k 6)) (c5 (R k 7)) (c5 (R k 8))); csimpl.
  { rewrite E16, Rt. reflexivity. }
  { rewrite (rv3 _ _ _ Hv4). reflexivity. }
  { rewrite (rv3 _ _ _ Hv4). reflexivity. }
  { rewrite (rv3 _ _ _ Hv4). reflexivity. }
  { exact Kt. }
  { rewrite St. lia. }
  { right. exists (R k 6). rewrite R4 by (apply Bi; lia). split; [rewrite Cn; specialize (B6 0 ltac:(lia)); cbn [Nat.add] in B6; lia|]. auto. }
  { right. exists (R k 7). rewrite R4 by (apply Bi; lia). split; [rewrite Cn; specialize (B6 1 ltac:(lia)); cbn [Nat.add] in B6; lia|]. auto. }
  { right. exists (R k 8). rewrite R4 by (apply Bi; lia). split; [rewrite Cn; specialize (B6 2 ltac:(lia)); cbn [Nat.add] in B6; lia|]. auto. }
  { rewrite O50. rewrite (proj1 (Lo 0 ltac:(lia))). auto. }
  { rewrite O51. rewrite (proj1 (Lo 1 ltac:(lia))). auto. }
  { rewrite O52. rewrite (proj1 (Lo 2 ltac:(lia))). auto. }
  { rewrite O50. apply Lo. lia. }
  { rewrite O51. apply Lo. lia. }
  { rewrite O52. apply Lo. lia. }
  { rewrite Rt. apply (N6 0). lia. }
  { rewrite Rt. apply (N6 1). lia. }
  { rewrite Rt. apply (N6 2). lia. }
  { rewrite Rt. reflexivity. }
  { apply Av; [exact Hk|lia]. }
  { apply Av; [exact Hk|lia]. }
  { apply Av; [exact Hk|lia]. }
  { exact H5. }
  intros m6 H6. unfold set_mm. cbn [iv dv pv mm nx ct]. rewrite O50, O51, O52 in H6.
  destruct (Lo 0 ltac:(lia)) as [L0 _]. destruct (Lo 1 ltac:(lia)) as [L1 _]. destruct (Lo 2 ltac:(lia)) as [L2 _]. fold sB in L0, L1, L2.
  rewrite !firstn_all2 in H6 by lia. set (x := lxor_list (lxor_list (sr_out Es P s salt k sk pt 0) (sr_out Es P s salt k sk pt 1)) (sr_out Es P s salt k sk pt 2)) in *.
  assert (Lx : length x = sB) by (unfold x; rewrite !length_lxor_list; rewrite ?length_lxor_list; lia).
  set (c6 := cset c5 kt _) in H6. assert (X6 : firstn sB (c6 kt) = x) by (unfold c6; rewrite cset_eq; apply firstn_blit0; auto).
  apply (h_memcmp n0 m0 U L4 0 _ _ (IC sB) _ c6 (n0, 0) qb (c6 kt) pub); csimpl.
  { rewrite E16. reflexivity. }
  { rewrite (rv11 _ _ _ Hv4 13), E13 by lia. reflexivity. }
  { right. exists kt. rewrite Rt. auto. }
  { left. apply ro_push; [auto|exact Rb]. }
  { rewrite (heap_len _ _ _ _ _ _ H6 kt Kt), St. lia. }
  { exact Lb. }
  { exact H6. }
  intros d u6 Hd. rewrite X6 in Hd. exists c6. split; [exact H6|]. intros m7 H7.
  assert (C6 : forall i, i < kt -> c6 i = c3 i) by (intros i Hi; unfold c6; rewrite cset_neq by lia; apply C5, Hi).
  assert (H8 : hp m7 c3) by (apply (heap_ext _ _ _ _ _ _ _ H7); intros i Hi; symmetry; apply C6, Hi).
  apply (HQ _ _ _ _ _ c3); [unfold pv4; apply rv_upd, Hv|exact H8|exact Hh|exact Oth|].
  rewrite Hd. rewrite eqb_bytes_eq. apply (sr_rel Es P HP1 HE HCs s salt k sk pub pt Lk Bk ltac:(fold W; lia) Bpt Lb Bb).
Qed.

(** ** The commitments *)
Definition done (c : nat -> bytes) : Prop := held c /\ forall j, j < 3 ->
  c (R k (9 + j)) = sr_commit Es P s salt k sk pt j /\ (is_UR (transf P) = true -> firstn (G_len P j) (c (R k (12 + j))) = sr_g Es P s salt k sk pt j).
Definition mine (i : nat) : Prop := i < 4 \/ exists j, j < per_round P /\ i = R k j.

Lemma held_vw c j : held c -> j < 3 -> vw c j = tget sv j.
Proof. intros H Hj. destruct (H j Hj) as (A & B & C). unfold vw. rewrite A, B, C. destruct (tget sv j). reflexivity. Qed.
Lemma held_set c i l : held c -> R k 9 <= i -> held (cset c i l).
Proof. intros H Hi j Hj. destruct (H j Hj) as (A & B & C). rewrite !cset_neq by lia. auto. Qed.

Lemma h_commitments s' iv1 dv1 pv1 m u c (Q : state -> Prop) : rv ps k pv1 -> hp m c -> held c ->
  (forall m' u' c', hp m' c' -> done c' -> others (fun i => exists j, 9 <= j < per_round P /\ i = R k j) c c' -> runs U s' (mkState iv1 dv1 pv1 m' n0 u') Q) ->
  runs U (c_commitments P ;; s') (mkState iv1 dv1 pv1 m n0 u) Q.
Proof.
  intros Hv H Hh HQ. pose proof per_12 as Pr. unfold c_commitments. apply runs_seq.
  apply runs_seq. apply (h_commit 0 _ _ _ _ _ c); [exact Hv|lia|exact H|]. intros m1 u1 H1. rewrite (held_vw c 0 Hh) in H1 by lia. set (c1 := cset c _ _) in H1.
  assert (Hh1 : held c1) by (apply held_set; [exact Hh|lia]).
  apply runs_seq. apply (h_commit 1 _ _ _ _ _ c1); [exact Hv|lia|exact H1|]. intros m2 u2 H2. rewrite (held_vw c1 1 Hh1) in H2 by lia. set (c2 := cset c1 _ _) in H2.
  assert (Hh2 : held c2) by (apply held_set; [exact Hh1|lia]).
  apply runs_seq. apply (h_commit 2 _ _ _ _ _ c2); [exact Hv|lia|exact H2|]. intros m3 u3 H3. rewrite (held_vw c2 2 Hh2) in H3 by lia. set (c3 := cset c2 _ _) in H3.
  assert (Hh3 : held c3) by (apply held_set; [exact Hh2|lia]).
  assert (D3 : forall j, j < 3 -> c3 (R k (9 + j)) = sr_commit Es P s salt k sk pt j).
  { intros j Hj. unfold c3, c2, c1. destruct (lt3_cases j Hj) as [->|[->| ->]]; cbn [Nat.add]; unfold cset;
      repeat first [rewrite Nat.eqb_refl|rewrite (proj2 (Nat.eqb_neq (R k _) (R k _))) by lia]; reflexivity. }
  destruct (is_UR (transf P)) eqn:Hu; cycle 1.
  { apply runs_skip. apply (HQ m3 u3 c3 H3).
    - split; [exact Hh3|]. intros j Hj. split; [apply D3, Hj|]. rewrite Hu. discriminate.
    - intros i Hi. unfold c3, c2, c1. rewrite !cset_neq; [reflexivity| | |]; intros ->; apply Hi; [exists 9|exists 10|exists 11]; split; try reflexivity; lia. }
  pose proof (per_15 Hu) as P15.
  apply runs_seq. apply (h_G 0 _ _ _ _ _ c3); [exact Hu|exact Hv|lia|exact H3|]. intros m4 u4 H4. rewrite (held_vw c3 0 Hh3) in H4 by lia. set (c4 := cset c3 _ _) in H4.
  assert (Hh4 : held c4) by (apply held_set; [exact Hh3|lia]).
  apply runs_seq. apply (h_G 1 _ _ _ _ _ c4); [exact Hu|exact Hv|lia|exact H4|]. intros m5 u5 H5. rewrite (held_vw c4 1 Hh4) in H5 by lia. set (c5 := cset c4 _ _) in H5.
  assert (Hh5 : held c5) by (apply held_set; [exact Hh4|lia]).
  apply (h_G 2 _ _ _ _ _ c5); [exact Hu|exact Hv|lia|exact H5|]. intros m6 u6 H6. rewrite (held_vw c5 2 Hh5) in H6 by lia. set (c6 := cset c5 _ _) in H6.
  assert (Hh6 : held c6) by (apply held_set; [exact Hh5|lia]).
  apply (HQ m6 u6 c6 H6).
  - split; [exact Hh6|]. intros j Hj. split.
    + rewrite <- (D3 j Hj). unfold c6, c5, c4. rewrite !cset_neq by lia. reflexivity.
    + intros _. assert (GL : forall v, length (G_val Es P j (s j) v) = G_len P j) by (intros v; unfold G_val; apply (hash_len Es P HE)).
      assert (X : exists b, c6 (R k (12 + j)) = blit_list b 0 (sr_g Es P s salt k sk pt j)).
      { eexists. unfold c6, c5, c4. destruct (lt3_cases j Hj) as [->|[->| ->]]; cbn [Nat.add]; unfold cset;
          repeat first [rewrite Nat.eqb_refl|rewrite (proj2 (Nat.eqb_neq (R k _) (R k _))) by lia]; reflexivity. }
      destruct X as (b & ->). apply firstn_blit0. symmetry. apply GL.
  - intros i Hi. unfold c6, c5, c4, c3, c2, c1. rewrite !cset_neq; [reflexivity| | | | | |]; intros ->; apply Hi; [exists 9|exists 10|exists 11|exists 12|exists 13|exists 14]; split; try reflexivity; lia.
Qed.

(** ** One round *)
Definition zero_round (c : nat -> bytes) : Prop := forall j, j < 3 -> c (R k (3 + j)) = zeros aB /\ c (R k (6 + j)) = zeros sB.
Definition outcome (r : nat) (c : nat -> bytes) : Prop := r = 1 /\ lowmc_relation Es P sk pt pub /\ done c \/ r = 0 /\ ~ lowmc_relation Es P sk pt pub.

Lemma h_round iv1 dv1 pv1 m u c (Q : state -> Prop) : rv ps k pv1 -> hp m c -> zero_round c ->
  (forall iv' dv' pv' m' u' c', hp m' c' -> others mine c c' -> outcome (iv' 2) c' -> Q (mkState iv' dv' pv' m' n0 u')) ->
  runs U (c_sign_round P k) (mkState iv1 dv1 pv1 m n0 u) Q.
Proof.
  intros Hv H Hz HQ. pose proof per_12 as Pr. pose proof (R_ge 0) as Rg. unfold c_sign_round.
  apply (h_share 0 _ _ _ _ _ _ c); [exact Hv|lia|exact H|]. intros m1 u1 iv2 c1 H1 A1 B1 C1.
  apply (h_share 1 _ _ _ _ _ _ c1); [exact Hv|lia|exact H1|]. intros m2 u2 iv3 c2 H2 A2 B2 C2. cbn [Nat.add] in B1, B2.
  apply (h_simulate _ _ _ _ _ _ c2); [exact Hv|exact H2| | |].
  - intros j Hj. assert (Hj' : j = 0 \/ j = 1) by lia. destruct Hj' as [-> | ->].
    + rewrite (C2 (R k 0)), (C2 (1 + 0)) by lia. auto.
    + auto.
  - intros j Hj. rewrite !C2, !C1 by lia. apply Hz, Hj.
  - intros iv4 d pv4 m4 u4 c4 Hv4 H4 Hh Ho Hd. apply runs_ifd. cbn [iv dv deval]. rewrite upd_eq.
    assert (O4 : others mine c c4).
    { intros i Hi. rewrite Ho, C2, C1; [reflexivity| | |]; intros X; apply Hi.
      - destruct X as [->|[->| ->]]; [left; lia|left; lia|right; exists 0; split; [lia|reflexivity]].
      - destruct X as [->|[->| ->]]; [left; lia|left; lia|right; exists 1; split; [lia|reflexivity]].
      - destruct X as [X|(j & Hj & X)]; [left; exact X|right; exists j; split; [lia|exact X]]. }
    destruct (N.eqb d 0) eqn:Ed.
    + apply (h_commitments _ _ _ _ _ _ c4); [exact Hv4|exact H4|exact Hh|]. intros m5 u5 c5 H5 Dn O5. apply runs_iset. csimpl.
      apply (HQ _ _ _ _ _ c5 H5).
      * intros i Hi. rewrite O5; [apply O4, Hi|]. intros (j & Hj & ->). apply Hi. right. exists j. split; [lia|reflexivity].
      * left. split; [reflexivity|]. split; [apply Hd; reflexivity|exact Dn].
    + apply runs_iset. csimpl. apply (HQ _ _ _ _ _ c4 H4 O4). right. split; [reflexivity|]. intros X. apply Hd in X. discriminate.
Qed.

Lemma nth3 {A} (l : list A) (f : nat -> A) : (forall j, j < 3 -> nth_error l (3 * k + j) = Some (f j)) ->
  nth_error l (3 * k) = Some (f 0) /\ nth_error l (3 * k + 1) = Some (f 1) /\ nth_error l (3 * k + 2) = Some (f 2).
Proof. intros X. rewrite <- (X 0), <- (X 1), <- (X 2) by lia. rewrite Nat.add_0_r. auto. Qed.

Hypothesis Eps : forall j, j < 3 -> nth_error (pv st 10) (3 * k + j) = Some (fst ps, snd ps + (3 * k + j) * seedSizeBytes P).

Lemma h_call_round iv1 dv1 m u c (Q : state -> Prop) : hp m c -> zero_round c ->
  (forall iv' m' u' c', (forall x, x <> 2 -> iv' x = iv1 x) -> hp m' c' -> others mine c c' -> outcome (iv' 2) c' -> Q (mkState iv' dv1 (pv st) m' n0 u')) ->
  runs U (call_sign_round P k) (mkState iv1 dv1 (pv st) m n0 u) Q.
Proof.
  intros H Hz HQ. unfold call_sign_round.
  destruct (nth3 _ _ (fun j Hj => proj1 (sc_views _ _ _ _ _ _ _ _ _ HM k j Hk Hj))) as (V10 & V11 & V12).
  destruct (nth3 _ _ (fun j Hj => proj1 (proj2 (sc_views _ _ _ _ _ _ _ _ _ HM k j Hk Hj)))) as (V20 & V21 & V22).
  destruct (nth3 _ _ (fun j Hj => proj2 (proj2 (sc_views _ _ _ _ _ _ _ _ _ HM k j Hk Hj)))) as (V30 & V31 & V32).
  destruct (nth3 _ _ Eps) as (S0 & S1 & S2).
  destruct (nth3 _ _ (fun j Hj => proj1 (sc_commits _ _ _ _ _ _ _ _ _ HM k j Hk Hj))) as (K0 & K1 & K2).
  set (f15 := if is_UR (transf P) then for3 (fun j => q (R k (12 + j))) else []).
  assert (E15 : pargeval iv1 (pv st) (if is_UR (transf P) then row 15 k else PL []) = Some f15).
  { unfold f15. destruct (is_UR (transf P)) eqn:Hu; [|reflexivity].
    destruct (nth3 _ _ (fun j Hj => proj2 (sc_commits _ _ _ _ _ _ _ _ _ HM k j Hk Hj) Hu)) as (G0 & G1 & G2).
    unfold row. cbn [pargeval pevals peval ieval]. rewrite G0, G1, G2. reflexivity. }
  set (l := [pv st 0; for3 (fun j => q (R k j)); for3 (fun j => q (R k (3 + j))); for3 (fun j => q (R k (6 + j))); pv st 4; pv st 5; pv st 6; pv st 7; pv st 8; pv st 9;
    for3 (fun j => (fst ps, snd ps + (3 * k + j) * seedSizeBytes P)); pv st 11; pv st 12; pv st 13; for3 (fun j => q (R k (9 + j))); f15] : list (list ptr)).
  apply (runs_call U _ _ _ _ _ _ l).
  { cbn [iv pv pargevals]. rewrite E15. unfold row. cbn [pargeval pevals peval ieval]. rewrite V10, V11, V12, V20, V21, V22, V30, V31, V32, S0, S1, S2, K0, K1, K2. unfold l, for3. reflexivity. }
  cbn [iv dv pv mm nx ct map]. apply (h_round _ _ _ _ _ c).
  - split; unfold args, l; try reflexivity.
    + cbn [nth]. rewrite (sc_tapes _ _ _ _ _ _ _ _ _ HM). reflexivity.
    + intros a Ha. assert (X : a = 4 \/ a = 5 \/ a = 6 \/ a = 7 \/ a = 8 \/ a = 9) by lia. destruct X as [->|[->|[->|[->|[->| ->]]]]]; reflexivity.
    + intros a Ha. assert (X : a = 11 \/ a = 12 \/ a = 13) by lia. destruct X as [->|[->| ->]]; reflexivity.
    + cbn [nth]. unfold f15. intros ->. reflexivity.
  - exact H.
  - exact Hz.
  - intros iv' dv' pv' m' u' c' H' O' X. cbn [iv dv pv mm nx ct copy_back]. apply (HQ _ m' u' c'); [intros x Hx; apply upd_neq, Hx|exact H'|exact O'|rewrite upd_eq; exact X].
Qed.
End Round.

(** ** The loop *)
Lemma done_ext k c c' : (forall j, j < per_round P -> c' (R k j) = c (R k j)) -> done k c -> done k c'.
Proof.
  intros X [Hh Hc]. pose proof per_12 as Pr. split.
  - intros j Hj. rewrite !X by lia. apply Hh, Hj.
  - intros j Hj. destruct (Hc j Hj) as [A B]. split; [rewrite X by lia; exact A|]. intros Hu. pose proof (per_15 Hu). rewrite X by lia. apply B, Hu.
Qed.

Hypothesis Eps : forall k j, k < T -> j < 3 -> nth_error (pv st 10) (3 * k + j) = Some (fst ps, snd ps + (3 * k + j) * seedSizeBytes P).

Lemma h_rounds n : forall k iv1 dv1 m u c (Q : state -> Prop), k + n = T -> iv1 2 = 1 -> (0 < k -> lowmc_relation Es P sk pt pub) -> hp m c ->
  (forall k', k <= k' < T -> zero_round k' c) ->
  (forall iv' m' u' c', (forall x, x <> 2 -> iv' x = iv1 x) -> hp m' c' -> (forall i, 4 <= i < R k 0 -> c' i = c i) ->
     (iv' 2 = 1 /\ lowmc_relation Es P sk pt pub /\ (forall k', k <= k' < T -> done k' c') \/ iv' 2 = 0 /\ ~ lowmc_relation Es P sk pt pub) -> Q (mkState iv' dv1 (pv st) m' n0 u')) ->
  runs U (c_sign_rounds P n k) (mkState iv1 dv1 (pv st) m n0 u) Q.
Proof.
  pose proof per_12 as Pr. pose proof (w1_T P HP1) as T0. fold T in T0.
  induction n as [|n IH]; intros k iv1 dv1 m u c Q Hn I1 Hr H Hz HQ; cbn [c_sign_rounds].
  - apply runs_skip. apply (HQ _ _ _ c); auto. left. split; [exact I1|]. split; [apply Hr; lia|]. intros k' Hk'. lia.
  - assert (Hk : k < T) by lia. apply runs_seq. apply (h_call_round k Hk (fun j Hj => Eps k j Hk Hj) _ _ _ _ c); [exact H|apply Hz; lia|].
    intros iv2 m2 u2 c2 J2 H2 O2 X2. destruct X2 as [(Y & Rl & Dn)|(Y & Rl)].
    + eapply runs_if; [csimpl; rewrite Y; reflexivity|]. cbv iota. apply (IH (S k) _ _ _ _ c2); [lia|exact Y|auto|exact H2| |].
      * intros k' Hk' j Hj. assert (X : forall i, i < 9 -> ~ mine k (R k' i)).
        { intros i Hi [X|(i' & Hi' & X)]; unfold round_at in X; [lia|nia]. }
        rewrite !O2 by (apply X; lia). apply Hz; lia.
      * intros iv3 m3 u3 c3 J3 H3 O3 X3. apply (HQ _ _ _ c3); [intros x Hx; rewrite J3, J2 by exact Hx; reflexivity|exact H3| |].
        -- intros i Hi. rewrite O3 by (unfold round_at in *; lia). apply O2. intros [X|(j & Hj & X)]; lia.
        -- destruct X3 as [(A & B & C)|X3]; [left|right; exact X3]. split; [exact A|]. split; [exact B|]. intros k' Hk'. destruct (Nat.eq_dec k' k) as [->|Hne]; [|apply C; lia].
           apply (done_ext k c2); [|exact Dn]. intros j Hj. apply O3. unfold round_at. lia.
    + eapply runs_if; [csimpl; rewrite Y; reflexivity|]. cbv iota. apply runs_skip. apply (HQ _ _ _ c2 J2 H2); [|auto].
      intros i Hi. apply O2. intros [X|(j & Hj & X)]; lia.
Qed.
End S.
