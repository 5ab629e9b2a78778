(** ZKB++ signing on memory with pointers, from the seeds to the signature. *)

From Coq Require Import List NArith Arith Bool Lia ZifyBool ZifyNat ZifyN.
From Verif Require Import Base Params Env Spec LowMC Picnic1 MiniC CodeLowMC CodeZkb CodeKeccak CodeP3 CodeSpec HashSpec CodeKeccakSpec CodeZkbSpec CodeHashUses CodeSign CodeSignSpec CodeVerAll CodeSignAll CodeSignAllSpec
  ApiSpec BaseFacts ParamFacts LowMCFacts SigSpec ZkbMpc Zkb ZkbRound ZkbSign ZkbChal ZkbCodec ZkbTop HashProofs
  MiniCFacts CodeRules CodeLowMCProofs CodeHeap CodeZkbMpc CodeZkbRun CodeP3Proofs CodeP3Lin CodeP3Sim CodeHashUsesTop CodeSignRules CodeSignProofs CodeSignThm CodeVerifyProofs CodeH3Proofs CodeSignAllModel ApiFacts.
From Verif Require CodeHashUsesSpec CodeVerRoundThm.
Import ListNotations.
Local Open Scope c_scope.

(** No buffer is empty. *)
Definition pos_b (P : paramset) : bool :=
  (1 <=? saltSizeBytes P) && (1 <=? seedSizeBytes P) && (1 <=? andSizeBytes P) && (1 <=? stateSizeBytes P) && (negb (is_UR (transf P)) || (1 <=? UnruhGWithoutInputBytes P)).
Lemma get_param_set_pos p P : get_param_set p = Some P -> pos_b P = true.
Proof. revert p P. apply (params_forall (fun _ P => pos_b P)). vm_compute. reflexivity. Qed.

Section S.
Variables (U : nat -> nat -> bytes) (HU : locals_ok U) (E : env) (P : paramset) (HP1 : wfP1 P) (HS : small P) (HD : 0 < digestSizeBytes P) (HN : pos_b P = true) (HE0 : env_bytes_ok E) (HC : constants_ok E P).
Variables (st : state) (q : nat -> ptr) (sk pub pt msg : bytes).
Hypothesis HM : signer_call P E st q sk pub pt msg.
Notation Es := (with_shake E).
Let T := numMPCRounds P.
Let I := inner P.
Let kB := seedSizeBytes P.
Let n0 := nx st.
Let m0 := mm st.
Let vl : layout := mkLayout (signer_count P) q (signer_size P).
Notation hp := (heap n0 m0 vl n0).
Notation R k j := (round_at P k + j).
Notation pb := (proof_bufs P).

Lemma pos : 0 < saltSizeBytes P /\ 0 < seedSizeBytes P /\ 0 < andSizeBytes P /\ 0 < stateSizeBytes P /\ (is_UR (transf P) = true -> 0 < UnruhGWithoutInputBytes P).
Proof. revert HN. unfold pos_b. rewrite !andb_true_iff, !Nat.leb_le. intros [[[[A B] C] D] F]. repeat (split; [assumption|]). intros Hu. rewrite Hu in F. apply Nat.leb_le in F. lia. Qed.
Lemma pb_56 : 5 <= pb <= 6.
Proof. unfold proof_bufs. destruct (is_UR _); lia. Qed.
Lemma pb_6 : is_UR (transf P) = true -> pb = 6.
Proof. unfold proof_bufs. intros ->. reflexivity. Qed.
Lemma R_in k j : k < T -> j < per_round P -> R k j < I.
Proof. intros Hk Hj. unfold I, inner, round_at. fold T. nia. Qed.
Lemma in_count j : j < I -> j < cnt vl.
Proof. cbn [vl cnt]. unfold signer_count. fold I. lia. Qed.
Lemma at_count k e : k < T -> e < pb -> proof_at P k e < cnt vl.
Proof. intros Hk He. cbn [vl cnt]. unfold signer_count, proof_at. fold T. nia. Qed.
Lemma size_in j : j < I -> sz vl j = sign_size P j.
Proof. intros H. cbn [vl sz]. unfold signer_size. fold I. rewrite (proj2 (Nat.ltb_lt j I) H). reflexivity. Qed.
Lemma size_R k j : k < T -> j < per_round P -> sz vl (R k j) = kind_size P j.
Proof. intros Hk Hj. rewrite size_in by (apply R_in; auto). apply (R_sz P st q); exact Hj. Qed.
Lemma size_seeds : sz vl I = kB * (3 * T) + saltSizeBytes P.
Proof. cbn [vl sz]. unfold signer_size. fold I. rewrite (proj2 (Nat.ltb_ge I I)), Nat.eqb_refl by lia. reflexivity. Qed.
Lemma size_salt : sz vl (I + 1) = saltSizeBytes P.
Proof. cbn [vl sz]. unfold signer_size. fold I. rewrite (proj2 (Nat.ltb_ge _ I)), (proj2 (Nat.eqb_neq _ I)), Nat.eqb_refl by lia. reflexivity. Qed.
Lemma size_chal : sz vl (I + 2) = numBytes (2 * T).
Proof. cbn [vl sz]. unfold signer_size. fold I. rewrite (proj2 (Nat.ltb_ge _ I)), (proj2 (Nat.eqb_neq _ I)), (proj2 (Nat.eqb_neq _ (I + 1))), Nat.eqb_refl by lia. reflexivity. Qed.
Lemma size_proof k e : e < pb -> sz vl (proof_at P k e) = proof_size P e.
Proof.
  intros He. cbn [vl sz]. unfold signer_size, proof_at. fold I. rewrite (proj2 (Nat.ltb_ge _ I)), (proj2 (Nat.eqb_neq _ I)), (proj2 (Nat.eqb_neq _ (I + 1))), (proj2 (Nat.eqb_neq _ (I + 2))) by lia.
  replace (I + 3 + pb * k + e - (I + 3)) with (e + k * pb) by lia. rewrite Nat.mod_add, Nat.mod_small by lia. reflexivity.
Qed.

Lemma all_ro p l : reads st (signer_writes P q) p l -> CodeHeap.ro n0 m0 vl p l.
Proof. intros (A & _ & B). split; [exact A|]. intros k Hk. apply B. unfold signer_writes. apply in_map_iff. exists k. split; [reflexivity|]. apply in_seq. cbn [vl cnt] in Hk. lia. Qed.

Lemma all_heap : exists c, hp (mm st) c /\ forall k j, k < T -> j < 9 -> c (R k j) = zeros (kind_size P j).
Proof.
  exists (fun j => rdmem (mm st) (q j) (signer_size P j)).
  assert (X : forall j, j < signer_count P -> exists l, CodeZkbSpec.holds st (q j) l /\ length l = signer_size P j /\ rdmem (mm st) (q j) (signer_size P j) = l).
  { intros j Hj. destruct (sg_room _ _ _ _ _ _ _ _ HM j Hj) as (l & A & B). exists l. split; [exact A|]. split; [exact B|].
    rewrite (rdmem_pts (nx st) _ _ l) by (apply A || lia). rewrite <- B. apply firstn_all. }
  split.
  - split; [split| | | |]; cbn [vl cnt reg sz].
    + auto.
    + intros j Hj. destruct (X j Hj) as (l & [[A _] _] & _). exact A.
    + intros k j Hi Hj Hne. apply (sg_apart _ _ _ _ _ _ _ _ HM k j (q k) (signer_size P k) (q j) (signer_size P j)); [exact (nth_map_seq _ _ k Hi)|exact (nth_map_seq _ _ j Hj)|exact Hne].
    + intros j Hj. destruct (X j Hj) as (l & [A _] & _ & ->). exact A.
    + intros j Hj. destruct (X j Hj) as (l & _ & A & ->). exact A.
    + intros j Hj. destruct (X j Hj) as (l & [_ A] & _ & ->). exact A.
    + apply chg_refl.
  - intros k j Hk Hj. pose proof (sg_calloc _ _ _ _ _ _ _ _ HM k j Hk Hj) as [A _]. pose proof (per_12 P st) as Pr. change (signer_size P (R k j)) with (sz vl (R k j)). rewrite size_R by lia.
    rewrite (rdmem_pts (nx st) _ _ _ _ A) by (rewrite length_zeros; auto). rewrite <- (length_zeros (kind_size P j)) at 1. apply firstn_all.
Qed.

Notation allSeeds := (all_seeds Es P sk pub pt msg).
Notation salt := (sig_salt Es P sk pub pt msg).

(** The seeds and the salt. *)
Lemma run_start (Q : state -> Prop) : (forall m u c, hp m c -> c I = allSeeds -> c (I + 1) = salt -> (forall k j, k < T -> j < 9 -> c (R k j) = zeros (kind_size P j)) ->
    Q (mkState (iv st) (dv st) (pv st) m n0 u)) -> runs U (c_start P (length msg)) st Q.
Proof.
  intros HQ. destruct all_heap as (c & H & Hz). unfold c_start. pose proof (per_12 P st) as Pr. destruct (wfP_block P (w1_wfP P HP1)) as [W1 _]. pose proof (wf_W3 P (w1_wfP P HP1)) as W3.
  destruct (sg_rc _ _ _ _ _ _ _ _ HM) as (qr & E9 & R9 & A9). destruct (sg_sk _ _ _ _ _ _ _ _ HM) as (qk & E12 & R12 & _ & L12 & _ & S12). destruct (sg_pub _ _ _ _ _ _ _ _ HM) as (qb & E13 & R13 & L13 & S13).
  destruct (sg_pt _ _ _ _ _ _ _ _ HM) as (qp & E4 & R4 & _ & L4). destruct (sg_msg _ _ _ _ _ _ _ _ HM) as (qm & E22 & R22 & S22). destruct (sg_seeds _ _ _ _ _ _ _ _ HM) as [E20 _]. pose proof (sg_salt _ _ _ _ _ _ _ _ HM) as E11.
  assert (HI : I < cnt vl) by (cbn [vl cnt]; unfold signer_count; fold I; lia). assert (HI1 : I + 1 < cnt vl) by (cbn [vl cnt]; unfold signer_count; fold I; lia).
  apply runs_seq. set (ps := [[qr]; []; []; [qk]; [qm]; [qb]; [qp]; [q I]]). set (z0 := mkState (args 0 []) (args 0%N []) (args [] ps) (mm st) (nx st) (ct st)).
  assert (X : forall a p l n, nth a ps [] = [p] -> reads st (signer_writes P q) p l -> n <= length l -> short l -> CodeHashUsesSpec.holds z0 a 0 n l).
  { intros a p l n Ea Rp Ln Sl. exists p. split; [cbn [z0 pv]; unfold args; rewrite Ea; reflexivity|]. split; [apply Rp|]. split; [apply Rp|auto]. }
  destruct (computeSeeds_code U HU E P z0 qr (q I) sk msg pub pt) as [MS (z' & t & Rn & Lv)].
  { apply (z_constants st ps qr); [apply R9|exact A9|reflexivity]. }
  { split; [reflexivity|]. rewrite (w1_N P HP1). split.
    - exists (c I). split; [rewrite (heap_len _ _ _ _ _ _ H I HI); exact size_seeds|apply (heap_pts _ _ _ _ _ _ H I HI)].
    - pose proof (proj2 (all_ro _ _ R9) I HI) as D. rewrite size_seeds in D. exact D. }
  { eapply X; [reflexivity|exact R12|exact L12|exact S12]. } { eapply X; [reflexivity|exact R22|lia|exact S22]. } { eapply X; [reflexivity|exact R13|exact L13|exact S13]. }
  { eapply X; [reflexivity|exact R4|lia|]. unfold short. rewrite L4. lia. }
  set (d := shake _ _ _) in *.
  assert (Ed : d = allSeeds) by (unfold d, all_seeds; rewrite (w1_N P HP1); unfold hash; cbn [prefix_bytes HASH_PREFIX_NONE concat app]; rewrite app_nil_r; reflexivity).
  assert (Ld : length d = sz vl I) by (rewrite size_seeds, Ed; apply length_all_seeds, shake_env, HE0).
  apply (h_leaves n0 m0 U vl _ _ _ ps st c I d).
  - cbn [pargevals pargeval pevals]. rewrite E9, E12, E22, E13, E4, E20. reflexivity.
  - cbv zeta. fold z0. exists z', t. split; [exact Rn|]. split; [exact Lv|]. intros m1 u1 H1. cbn [copy_back].
    assert (B1 : blit_list (c I) 0 d = allSeeds) by (rewrite <- Ed; apply blit_list_all; rewrite (heap_len _ _ _ _ _ _ H I HI); auto). rewrite B1 in H1.
    pose proof (w1_T P HP1) as HT. fold T in HT. destruct pos as [PS _].
    apply (h_memcpy_off n0 m0 U vl _ _ _ _ (cset c I allSeeds) (I + 1) I (T * 3 * kB)); cbn [ieval iv pv mm nx].
    + cbn [peval P0 ieval]. rewrite E11. reflexivity.
    + cbn [peval P0 ieval]. rewrite E20. cbn [nth_error]. fold I. fold T kB. cbn [vl reg]. destruct (q I). reflexivity.
    + exact HI1.
    + exact HI.
    + lia.
    + rewrite size_salt. lia.
    + rewrite size_seeds. lia.
    + lia.
    + exact H1.
    + intros m2 H2. unfold set_mm. cbn [iv dv pv nx ct]. eapply HQ; [exact H2| | |].
      * rewrite cset_neq by lia. apply cset_eq.
      * rewrite cset_eq. rewrite cset_eq. rewrite cset_neq by lia. apply blit_list_all. rewrite (heap_len _ _ _ _ _ _ H _ HI1), size_salt. symmetry. apply length_sig_salt, shake_env, HE0.
      * intros k j Hk Hj. pose proof (R_in k j Hk ltac:(lia)). rewrite !cset_neq by lia. apply Hz; auto.
  - exact HI.
  - lia.
  - apply shake_ok.
  - exact H.
Qed.

(** The rounds, inside. *)
Lemma in_call m u c : hp m c -> c I = allSeeds -> c (I + 1) = salt -> (forall k j, k < T -> j < 9 -> c (R k j) = zeros (kind_size P j)) ->
  sign_call P E (mkState (iv st) (dv st) (pv st) m n0 u) q allSeeds salt sk pub pt.
Proof.
  intros H CI CS Hz. pose proof (per_12 P st) as Pr. set (z := mkState _ _ _ _ _ _).
  assert (In : forall p k, In (p, k) (sign_writes P q) -> In (p, k) (signer_writes P q)).
  { intros p k Hp. unfold sign_writes in Hp. apply in_map_iff in Hp. destruct Hp as (j & Eq & Hj). apply in_seq in Hj. injection Eq as <- <-. assert (HjI : j < I) by (unfold I, inner; lia).
    rewrite <- (size_in j HjI). apply in_map_iff. exists j. split; [reflexivity|]. apply in_seq. pose proof (in_count j HjI). cbn [vl cnt] in *. lia. }
  assert (RR : forall p l, reads st (signer_writes P q) p l -> reads z (sign_writes P q) p l).
  { intros p l Rp. split; [apply (heap_ro _ _ _ _ _ _ _ _ H (all_ro _ _ Rp))|]. split; [apply Rp|]. intros p' k Hp. apply Rp, In, Hp. }
  assert (KK : forall a k f, constants st a k f (signer_writes P q) -> constants z a k f (sign_writes P q)).
  { intros a k f Hc j Hj. destruct (Hc j Hj) as (p & Np & Rp & Ap). exists p. split; [exact Np|]. split; [apply RR, Rp|exact Ap]. }
  assert (RI : forall k, I <= k < cnt vl -> reads z (sign_writes P q) (q k) (c k)).
  { intros k Hk. split; [apply (heap_pts _ _ _ _ _ _ H k); lia|]. split; [apply (heap_ok _ _ _ _ _ _ H k); lia|]. intros p l Hp. unfold sign_writes in Hp. apply in_map_iff in Hp. destruct Hp as (j & Eq & Hj). apply in_seq in Hj. injection Eq as <- <-.
    assert (HjI : j < I) by (unfold I, inner; lia). rewrite <- (size_in j HjI). rewrite (heap_len _ _ _ _ _ _ H k) by lia. apply (lay_apart _ _ _ (heap_lay _ _ _ _ _ _ H)); [apply in_count, HjI|lia|lia]. }
  assert (HI : I <= I < cnt vl) by (cbn [vl cnt]; unfold signer_count; fold I; lia). assert (HI1 : I <= I + 1 < cnt vl) by (cbn [vl cnt]; unfold signer_count; fold I; lia).
  split.
  - intros a b p k p' l Ha Hb Hne. unfold sign_writes in Ha, Hb.
    assert (La : a < I) by (unfold I, inner; rewrite <- (seq_length (round_at P (numMPCRounds P)) 0), <- (map_length (fun i => (q i, sign_size P i))); apply nth_error_Some; congruence).
    assert (Lb : b < I) by (unfold I, inner; rewrite <- (seq_length (round_at P (numMPCRounds P)) 0), <- (map_length (fun i => (q i, sign_size P i))); apply nth_error_Some; congruence).
    rewrite nth_map_seq in Ha by exact La. rewrite nth_map_seq in Hb by exact Lb. injection Ha as <- <-. injection Hb as <- <-. rewrite <- (size_in a La), <- (size_in b Lb).
    apply (lay_apart _ _ _ (heap_lay _ _ _ _ _ _ H)); [apply in_count, La|apply in_count, Lb|exact Hne].
  - intros j Hj. assert (HjI : j < I) by exact Hj. pose proof (in_count j HjI) as K. exists (c j). split; [split; [apply (heap_pts _ _ _ _ _ _ H j K)|apply (heap_ok _ _ _ _ _ _ H j K)]|]. rewrite <- (size_in j HjI). apply (heap_len _ _ _ _ _ _ H j K).
  - intros k j Hk Hj. assert (K : R k j < cnt vl) by (apply in_count, R_in; [exact Hk|lia]). rewrite <- (Hz k j Hk Hj). split; [apply (heap_pts _ _ _ _ _ _ H _ K)|apply (heap_ok _ _ _ _ _ _ H _ K)].
  - exact (sg_align _ _ _ _ _ _ _ _ HM).
  - exact (sg_tapes _ _ _ _ _ _ _ _ HM).
  - exact (sg_views _ _ _ _ _ _ _ _ HM).
  - destruct (sg_pt _ _ _ _ _ _ _ _ HM) as (p & A & B & C & D). exists p. split; [exact A|]. split; [apply RR, B|auto].
  - exact (sg_tmp _ _ _ _ _ _ _ _ HM).
  - apply KK, (sg_K _ _ _ _ _ _ _ _ HM).
  - apply KK, (sg_L _ _ _ _ _ _ _ _ HM).
  - apply KK, (sg_C _ _ _ _ _ _ _ _ HM).
  - destruct (sg_rc _ _ _ _ _ _ _ _ HM) as (p & A & B & C). exists p. split; [exact A|]. split; [apply RR, B|auto].
  - exists (q I). split; [rewrite <- CI; apply RI, HI|]. split; [rewrite (length_all_seeds Es P (shake_env E HE0)); lia|]. apply (sg_seeds _ _ _ _ _ _ _ _ HM).
  - exists (q (I + 1)). split; [exact (sg_salt _ _ _ _ _ _ _ _ HM)|]. split; [rewrite <- CS; apply RI, HI1|]. apply length_sig_salt, shake_env, HE0.
  - destruct (sg_sk _ _ _ _ _ _ _ _ HM) as (p & A & B & C & D & _). exists p. split; [exact A|]. split; [apply RR, B|auto].
  - destruct (sg_pub _ _ _ _ _ _ _ _ HM) as (p & A & B & C & D). exists p. split; [exact A|]. split; [apply RR, B|auto].
  - exact (sg_commits _ _ _ _ _ _ _ _ HM).
Qed.

Lemma lift m m' c c' : hp m c -> heap n0 m (mkLayout (round_at P T) q (sign_size P)) n0 m' c' -> hp m' (fun j => if j <? I then c' j else c j).
Proof.
  intros H H'. pose proof (heap_chg _ _ _ _ _ _ H') as C. apply (heap_multi n0 m0 vl n0 m m' c _ _ H C).
  - intros p k Hp. apply in_regions in Hp. destruct Hp as (j & Hj & -> & ->). cbn [cnt reg sz] in *. assert (HjI : j < I) by exact Hj. exists j. split; [apply in_count, HjI|]. rewrite size_in by exact HjI. cbn [vl reg]. auto.
  - intros j Hj. destruct (Nat.ltb_spec j I) as [L|L].
    + rewrite size_in by exact L. split; [apply (heap_pts _ _ _ _ _ _ H' j L)|]. split; [apply (heap_len _ _ _ _ _ _ H' j L)|apply (heap_ok _ _ _ _ _ _ H' j L)].
    + pose proof (heap_len _ _ _ _ _ _ H j Hj) as Lj. split; [|split; [exact Lj|apply (heap_ok _ _ _ _ _ _ H j Hj)]].
      apply (pts_chg n0 m m' _ _ _ C (heap_pts _ _ _ _ _ _ H j Hj)). intros p l Hp. apply in_regions in Hp. destruct Hp as (x & Hx & -> & ->). cbn [cnt reg sz] in *. assert (HxI : x < I) by exact Hx.
      rewrite Lj, <- (size_in x HxI). apply (lay_apart _ _ _ (heap_lay _ _ _ _ _ _ H)); [apply in_count, HxI|exact Hj|lia].
Qed.

Notation done k c := (done E P allSeeds salt sk pt k c).
Lemma done_ext k c c' : k < T -> (forall j, j < I -> c' j = c j) -> done k c -> done k c'.
Proof.
  intros Hk X [A B]. pose proof (per_12 P st) as Pr. split.
  - intros j Hj. rewrite !X by (apply R_in; lia). apply A, Hj.
  - intros j Hj. rewrite X by (apply R_in; lia). destruct (B j Hj) as [B1 B2]. split; [exact B1|]. intros Hu. pose proof (per_15 P Hu). rewrite X by (apply R_in; lia). apply B2, Hu.
Qed.

(** After the seeds and the rounds. *)
Lemma run_rounds s (Q : state -> Prop) :
  (forall iv' m u c, hp m c -> c I = allSeeds -> c (I + 1) = salt ->
     (iv' 2 = 1 /\ lowmc_relation E P sk pt pub /\ (forall k, k < T -> done k c) \/ iv' 2 = 0 /\ ~ lowmc_relation E P sk pt pub) -> runs U s (mkState iv' (dv st) (pv st) m n0 u) Q) ->
  runs U (c_start P (length msg) ;; c_sign_loop P ;; s) st Q.
Proof.
  intros HQ. apply runs_seq, run_start. intros m u c H CI CS Hz. pose proof (in_call m u c H CI CS Hz) as SC. apply runs_seq.
  apply (runs_sign_loop U HU E P HP1 HS HE0 HC _ q allSeeds salt sk pub pt SC). cbn [iv dv pv mm nx]. intros iv' m' u' c' _ H' X. pose proof (lift m m' c c' H H') as HL.
  apply (HQ iv' m' u' _ HL).
  - rewrite (proj2 (Nat.ltb_ge I I)) by lia. exact CI.
  - rewrite (proj2 (Nat.ltb_ge (I + 1) I)) by lia. exact CS.
  - destruct X as [(A & B & C)|X]; [left|right; exact X]. split; [exact A|]. split; [exact B|]. intros k Hk. apply (done_ext k c'); [exact Hk| |apply C, Hk]. intros j Hj. rewrite (proj2 (Nat.ltb_lt j I) Hj). reflexivity.
Qed.

(** One proof. *)
Notation seed_of := (seed_of Es P sk pub pt msg).
Notation opening cb k := (sign_opening Es P sk pub pt msg cb k).
Definition packed (k ch : nat) (o : ZkbRound.opening) (c : nat -> bytes) : Prop :=
  c (proof_at P k 0) = o_seed1 o /\ c (proof_at P k 1) = o_seed2 o /\ (ch <> 0 -> c (proof_at P k 2) = o_in o) /\ c (proof_at P k 3) = o_comm o /\ c (proof_at P k 4) = o_c3 o /\
  (is_UR (transf P) = true -> firstn (G_len P (prv ch)) (c (proof_at P k 5)) = o_g3 o).

Section Pack.
Variables (k ch : nat) (Hk : k < T) (Hch : ch < 3).
Notation pa e := (proof_at P k e).
Record given (y : state) : Prop := {
  gv_n : nx y = n0;
  gv_ch : iv y 0 = ch;
  gv_0 : forall e, e < pb -> nth_error (pv y 0) e = Some (q (pa e));
  gv_1 : forall j, j < 3 -> nth_error (pv y 1) j = Some (fst (q I), snd (q I) + (3 * k + j) * kB);
  gv_2 : forall j, j < 3 -> nth_error (pv y 2) j = Some (q (R k j));
  gv_3 : forall j, j < 3 -> nth_error (pv y 3) j = Some (q (R k (3 + j)));
  gv_4 : forall j, j < 3 -> nth_error (pv y 4) j = Some (q (R k (9 + j)));
  gv_5 : is_UR (transf P) = true -> forall j, j < 3 -> nth_error (pv y 5) j = Some (q (R k (12 + j)))
}.
Lemma given_mm y m : given y -> given (set_mm y m).
Proof. intros [A B C D F G J L]. split; assumption. Qed.

Lemma pa_ge e : I + 3 <= pa e.
Proof. unfold proof_at. fold I. lia. Qed.
Lemma pa_neq e e' : e <> e' -> pa e <> pa e'.
Proof. unfold proof_at. lia. Qed.

Lemma copy_seed e j y c (Q : state -> Prop) : e < 2 -> j < 3 -> given y -> hp (mm y) c -> c I = allSeeds ->
  (forall m', hp m' (cset c (pa e) (seed_of k j)) -> Q (set_mm y m')) -> runs U (MemCpy (PV 0 (IC e)) (PV 1 (IC j)) (IC kB)) y Q.
Proof.
  intros He Hj G H CI HQ. pose proof pb_56 as Pb. destruct pos as (_ & PK & _). pose proof (at_count k e Hk ltac:(lia)) as K. assert (HI : I < cnt vl) by (cbn [vl cnt]; unfold signer_count; fold I; lia).
  pose proof (size_proof k e ltac:(lia)) as Sz. assert (Se : proof_size P e = kB) by (destruct e as [|[|]]; [reflexivity|reflexivity|lia]). pose proof (pa_ge e).
  apply (h_memcpy_off n0 m0 U vl _ _ _ _ c (pa e) I ((3 * k + j) * kB)); cbn [ieval].
  - cbn [peval ieval]. apply (gv_0 y G). lia.
  - cbn [peval ieval]. apply (gv_1 y G), Hj.
  - exact K.
  - exact HI.
  - lia.
  - rewrite Sz, Se. lia.
  - rewrite size_seeds. nia.
  - exact PK.
  - rewrite (gv_n y G). exact H.
  - rewrite (gv_n y G). intros m' H'. rewrite CI in H'. rewrite blit_list_all in H'; [apply HQ, H'|].
    rewrite (heap_len _ _ _ _ _ _ H _ K), Sz, Se. symmetry. apply (length_seed_of Es P (shake_env E HE0)); [exact Hk|exact Hj].
Qed.

Lemma copy_part a e i s n y c (Q : state -> Prop) : e < pb -> s < I -> peval (iv y) (pv y) (PV a i) = Some (q s) -> 0 < n -> n <= proof_size P e -> n <= sz vl s -> given y -> hp (mm y) c ->
  (forall m', hp m' (cset c (pa e) (blit_list (c (pa e)) 0 (firstn n (c s)))) -> Q (set_mm y m')) -> runs U (MemCpy (PV 0 (IC e)) (PV a i) (IC n)) y Q.
Proof.
  intros He Hs Ep Hn Ln Ls G H HQ. pose proof (at_count k e Hk He) as K. pose proof (in_count s Hs) as Ks. pose proof (size_proof k e He) as Sz. pose proof (pa_ge e).
  apply (h_memcpy_part n0 m0 U vl _ _ _ y c (pa e) (q s) (c s)); cbn [ieval].
  - cbn [peval ieval]. apply (gv_0 y G), He.
  - exact Ep.
  - exact K.
  - cbn [vl reg]. intros Eq. pose proof (lay_apart _ _ _ (heap_lay _ _ _ _ _ _ H) s (pa e) Ks K ltac:(lia)) as D. cbn [vl reg] in D. rewrite Eq in D. unfold disj in D. change (sz _ (pa e)) with (sz vl (pa e)) in D. change (sz _ s) with (sz vl s) in D. rewrite Sz in D. lia.
  - right. exists s. auto.
  - apply (heap_ok _ _ _ _ _ _ H _ Ks).
  - rewrite Sz. exact Ln.
  - rewrite (heap_len _ _ _ _ _ _ H _ Ks). exact Ls.
  - exact Hn.
  - rewrite (gv_n y G). exact H.
  - rewrite (gv_n y G). exact HQ.
Qed.

Lemma copy_all a e i s y c (Q : state -> Prop) : e < 5 -> s < I -> peval (iv y) (pv y) (PV a i) = Some (q s) -> 0 < proof_size P e -> sz vl s = proof_size P e -> given y -> hp (mm y) c ->
  (forall m', hp m' (cset c (pa e) (c s)) -> Q (set_mm y m')) -> runs U (MemCpy (PV 0 (IC e)) (PV a i) (IC (proof_size P e))) y Q.
Proof.
  intros He Hs Ep Hn Ls G H HQ. pose proof pb_56 as Pb. pose proof (in_count s Hs) as Ks. pose proof (at_count k e Hk ltac:(lia)) as K. pose proof (heap_len _ _ _ _ _ _ H _ Ks) as L1. pose proof (heap_len _ _ _ _ _ _ H _ K) as L2. rewrite size_proof in L2 by lia.
  apply (copy_part a e i s (proof_size P e) y c); [lia|exact Hs|exact Ep|exact Hn|lia|lia|exact G|exact H|]. intros m' H'. rewrite firstn_all2 in H' by lia. rewrite blit_list_all in H' by congruence. apply HQ, H'.
Qed.

Lemma run_prove y c : given y -> hp (mm y) c -> c I = allSeeds -> done k c ->
  runs U (c_prove P) y (fun z => nx z = n0 /\ exists c', hp (mm z) c' /\ (forall j, (forall e, e < pb -> j <> pa e) -> c' j = c j) /\
    packed k ch (sr_opening Es P (seed_of k) salt k sk pt ch) c').
Proof.
  intros G H CI [Dh Dc]. pose proof pb_56 as Pb. pose proof (per_12 P st) as Pr. destruct pos as (_ & PK & PA & PS & PG).
  destruct (sg_sk _ _ _ _ _ _ _ _ HM) as (qk12 & _ & R12 & _ & L12 & _). destruct (sg_pt _ _ _ _ _ _ _ _ HM) as (qp4 & _ & R4 & _ & L4).
  pose proof (sr_views_spec Es P HP1 (shake_env E HE0) HC (seed_of k) salt k sk pt L12 (proj1 (proj2 R12)) ltac:(lia) (proj1 (proj2 R4))) as SV.
  destruct (SV 2 ltac:(lia)) as (I2 & _).
  assert (N1 : nxt ch < 3) by apply nxt_lt. assert (N2 : prv ch < 3) by apply prv_lt.
  assert (NP : forall s e, s < I -> s <> pa e) by (intros s e Hs; pose proof (pa_ge e); lia).
  (* the seeds *)
  assert (S1 : forall i j y0 c0 (Q : state -> Prop), i < 3 -> j < 3 -> given y0 -> hp (mm y0) c0 -> c0 I = allSeeds ->
     (forall m', hp m' (cset (cset c0 (pa 0) (seed_of k i)) (pa 1) (seed_of k j)) -> Q (set_mm y0 m')) -> runs U (c_seeds_pair P i j) y0 Q).
  { intros i j y0 c0 Q Hi Hj G0 H0 C0 HQ. unfold c_seeds_pair. apply runs_seq. apply (copy_seed 0 i y0 c0); [lia|exact Hi|exact G0|exact H0|exact C0|]. intros m1 H1.
    apply (copy_seed 1 j (set_mm y0 m1) (cset c0 (pa 0) (seed_of k i))); [lia|exact Hj|apply given_mm, G0|exact H1| |]. { rewrite cset_neq; [exact C0|]. pose proof (pa_ge 0). lia. } intros m2 H2. apply HQ, H2. }
  assert (S2 : forall (Q : state -> Prop), (forall m', hp m' (cset (cset c (pa 0) (seed_of k ch)) (pa 1) (seed_of k (nxt ch))) -> Q (set_mm y m')) ->
     runs U (If (CEq (IV 0) (IC 0)) (c_seeds_pair P 0 1) (If (CEq (IV 0) (IC 1)) (c_seeds_pair P 1 2) (If (CEq (IV 0) (IC 2)) (c_seeds_pair P 2 0) Skip))) y Q).
  { intros Q HQ. eapply runs_if; [cbn [ceval ieval]; rewrite (gv_ch y G); reflexivity|]. destruct (Nat.eqb_spec ch 0) as [E0|N0]; [apply (S1 0 1 y c); auto; try lia; rewrite E0 in HQ; exact HQ|].
    eapply runs_if; [cbn [ceval ieval]; rewrite (gv_ch y G); reflexivity|]. destruct (Nat.eqb_spec ch 1) as [E1|N1']; [apply (S1 1 2 y c); auto; try lia; rewrite E1 in HQ; exact HQ|].
    eapply runs_if; [cbn [ceval ieval]; rewrite (gv_ch y G); reflexivity|]. destruct (Nat.eqb_spec ch 2) as [E2|N2']; [|lia]. apply (S1 2 0 y c); auto; try lia; rewrite E2 in HQ; exact HQ. }
  unfold c_prove. apply runs_seq, S2. intros m1 H1. set (y1 := set_mm y m1). pose proof (given_mm y m1 G) as G1. fold y1 in G1. set (c1 := cset (cset _ _ _) _ _) in *.
  assert (X1 : forall j, j <> pa 0 -> j <> pa 1 -> c1 j = c j) by (intros j A B; unfold c1; rewrite !cset_neq by assumption; reflexivity).
  (* the input share *)
  assert (S3 : forall (Q : state -> Prop), (forall m' c', hp m' c' -> (forall j, j <> pa 2 -> c' j = c1 j) -> (ch <> 0 -> c' (pa 2) = c (R k 2)) -> Q (set_mm y1 m')) ->
     runs U (If (CEq (IV 0) (IC 1)) (c_input3 P) (If (CEq (IV 0) (IC 2)) (c_input3 P) Skip)) y1 Q).
  { intros Q HQ. assert (CP : runs U (c_input3 P) y1 Q).
    { unfold c_input3. change (stateSizeBytes P) with (proof_size P 2). apply (copy_all 2 2 (IC 2) (R k 2) y1 c1); [lia|apply R_in; lia|cbn [peval ieval]; apply (gv_2 y1 G1); lia|exact PS| |exact G1|exact H1|].
      - rewrite size_R by lia. reflexivity.
      - intros m' H'. apply (HQ m' _ H'); [intros j Hj; apply cset_neq, Hj|]. intros _. rewrite cset_eq. apply X1; apply NP, R_in; lia. }
    eapply runs_if; [cbn [ceval ieval]; rewrite (gv_ch y1 G1); reflexivity|]. destruct (Nat.eqb_spec ch 1); [exact CP|].
    eapply runs_if; [cbn [ceval ieval]; rewrite (gv_ch y1 G1); reflexivity|]. destruct (Nat.eqb_spec ch 2); [exact CP|].
    apply runs_skip. apply (HQ m1 c1 H1); [reflexivity|]. intros. lia. }
  apply runs_seq, S3. intros m2 c2 H2 X2 D2. set (y2 := set_mm y1 m2). pose proof (given_mm y1 m2 G1) as G2. fold y2 in G2.
  apply runs_seq. change (andSizeBytes P) with (proof_size P 3). apply (copy_all 3 3 _ (R k (3 + nxt ch)) y2 c2); [lia|apply R_in; lia| |exact PA| |exact G2|exact H2|].
  { cbn [peval ieval]. rewrite (gv_ch y2 G2). apply (gv_3 y2 G2), N1. }
  { rewrite size_R by lia. destruct (lt3_cases _ N1) as [->|[->| ->]]; reflexivity. }
  intros m3 H3. set (y3 := set_mm y2 m3). pose proof (given_mm y2 m3 G2) as G3. fold y3 in G3. rewrite X2, X1 in H3 by (apply NP, R_in; lia).
  apply runs_seq. change (digestSizeBytes P) with (proof_size P 4). apply (copy_all 4 4 _ (R k (9 + prv ch)) y3 (cset c2 (pa 3) (c (R k (3 + nxt ch))))); [lia|apply R_in; lia| |exact HD| |exact G3|exact H3|].
  { cbn [peval ieval]. rewrite (gv_ch y3 G3). apply (gv_4 y3 G3), N2. }
  { rewrite size_R by lia. destruct (lt3_cases _ N2) as [->|[->| ->]]; reflexivity. }
  intros m4 H4. set (y4 := set_mm y3 m4). pose proof (given_mm y3 m4 G3) as G4. fold y4 in G4. rewrite cset_neq, X2, X1 in H4 by (apply NP, R_in; lia).
  set (c4 := cset (cset c2 _ _) _ _) in *.
  assert (X4 : forall j, j < I -> c4 j = c j) by (intros j Hj; unfold c4; rewrite !cset_neq by (apply NP, Hj); rewrite X2 by (apply NP, Hj); apply X1; apply NP, Hj).
  assert (FIN : forall m5 c5, hp m5 c5 -> (forall j, j <> pa 5 -> c5 j = c4 j) -> (is_UR (transf P) = false -> c5 = c4) ->
     (is_UR (transf P) = true -> firstn (G_len P (prv ch)) (c5 (pa 5)) = firstn (G_len P (prv ch)) (c (R k (12 + prv ch)))) ->
     nx (set_mm y4 m5) = n0 /\ exists c', hp (mm (set_mm y4 m5)) c' /\ (forall j, (forall e, e < pb -> j <> pa e) -> c' j = c j) /\ packed k ch (sr_opening Es P (seed_of k) salt k sk pt ch) c').
  { intros m5 c5 H5 X5 X5' D5. split; [exact (gv_n y4 G4)|]. exists c5. split; [exact H5|]. split.
    - intros j Hj. assert (A5 : c5 j = c4 j). { destruct (is_UR (transf P)) eqn:Hu; [|rewrite X5' by reflexivity; reflexivity]. apply X5, Hj. rewrite (pb_6 Hu). lia. }
      rewrite A5. unfold c4. rewrite !cset_neq by (apply Hj; lia). rewrite X2 by (apply Hj; lia). apply X1; apply Hj; lia.
    - unfold packed, sr_opening. cbn [o_seed1 o_seed2 o_in o_comm o_c3 o_g3]. rewrite !X5 by (apply pa_neq; lia). unfold c4.
      destruct (Dh (nxt ch) N1) as (_ & A2 & _). destruct (Dh 2 ltac:(lia)) as (A1 & _). destruct (Dc (prv ch) N2) as [A4 A5].
      split; [rewrite !cset_neq by (apply pa_neq; lia); rewrite X2 by (apply pa_neq; lia); unfold c1; rewrite cset_neq by (apply pa_neq; lia); apply cset_eq|].
      split; [rewrite !cset_neq by (apply pa_neq; lia); rewrite X2 by (apply pa_neq; lia); apply cset_eq|].
      split; [intros N0; rewrite !cset_neq by (apply pa_neq; lia); rewrite D2 by exact N0; rewrite A1; exact I2|].
      split; [rewrite cset_neq by (apply pa_neq; lia); rewrite cset_eq; exact A2|].
      split; [rewrite cset_eq; exact A4|]. intros Hu. rewrite (D5 Hu). exact (A5 Hu). }
  destruct (is_UR (transf P)) eqn:Hu.
  2:{ apply runs_skip. apply (FIN m4 c4 H4); auto. discriminate. }
  pose proof (per_15 P Hu) as Pr5. pose proof (pb_6 Hu) as Pb6. pose proof (w1_Gwo P HP1 Hu) as W1. pose proof (w1_Gw P HP1 Hu) as W2. specialize (PG eq_refl).
  assert (CG : forall n, n = G_len P (prv ch) -> 0 < n -> n <= UnruhGWithInputBytes P -> runs U (c_view3G n) y4 (fun z => nx z = n0 /\ exists c', hp (mm z) c' /\ (forall j, (forall e, e < pb -> j <> pa e) -> c' j = c j) /\ packed k ch (sr_opening Es P (seed_of k) salt k sk pt ch) c')).
  { intros n En Pn Ln. unfold c_view3G. assert (KS : kind_size P (12 + prv ch) = UnruhGWithInputBytes P) by (destruct (lt3_cases _ N2) as [->|[->| ->]]; reflexivity).
    apply (copy_part 5 5 _ (R k (12 + prv ch)) n y4 c4); [lia|apply R_in; lia| |exact Pn|exact Ln| |exact G4|exact H4|].
    - cbn [peval ieval]. rewrite (gv_ch y4 G4). apply (gv_5 y4 G4 Hu), N2.
    - rewrite size_R by lia. rewrite KS. exact Ln.
    - intros m5 H5. eapply FIN; [exact H5|intros j Hj; apply cset_neq, Hj|discriminate|]. intros _. rewrite cset_eq. rewrite (X4 (R k (12 + prv ch))) by (apply R_in; lia). rewrite <- En.
      assert (Lc : length (c (R k (12 + prv ch))) = UnruhGWithInputBytes P) by (rewrite (heap_len _ _ _ _ _ _ H _ (in_count _ (R_in k (12 + prv ch) Hk ltac:(lia)))), size_R, KS by lia; reflexivity).
      rewrite firstn_blit0; [reflexivity|rewrite firstn_length; lia]. }
  eapply runs_if; [cbn [ceval ieval]; rewrite (gv_ch y4 G4); reflexivity|]. destruct (Nat.eqb_spec ch 0) as [E0|N0].
  - assert (GL : UnruhGWithInputBytes P = G_len P (prv ch)) by (rewrite E0; unfold G_len, prv; change ((0 + 2) mod 3 =? 2) with true; cbv iota; lia). apply CG; [exact GL|lia|lia].
  - apply CG; [|lia|lia]. unfold G_len. replace (prv ch =? 2) with false; [lia|]. assert (ch = 1 \/ ch = 2) as [->| ->] by lia; reflexivity.
Qed.
End Pack.

(** Packing all proofs. *)
Section Packs.
Variables (cb : bytes) (Lcb : length cb = numBytes (2 * T)) (H3cb : forall k, k < T -> chalv cb k < 3).
Variable c1 : nat -> bytes.
Hypotheses (C1s : c1 I = allSeeds) (C1c : c1 (I + 2) = cb) (C1d : forall k, k < T -> done k c1).
Definition inv (i : nat) (z : state) : Prop := nx z = n0 /\ (forall a, a <> 21 -> pv z a = pv st a) /\ iv z 2 = 1 /\ iv z 3 = 1 /\
  exists c, hp (mm z) c /\ (forall j, j < I + 3 -> c j = c1 j) /\ forall k, k < i -> packed k (chalv cb k) (opening cb k) c.

Lemma row_eval f h a n k (g : nat -> ptr) : (forall j, j < n -> nth_error (h a) (n * k + j) = Some (g j)) -> pargeval f h (CodeVerAll.row a n k) = Some (map g (seq 0 n)).
Proof.
  intros H. unfold CodeVerAll.row. cbn [pargeval]. assert (X : forall js, (forall j, In j js -> j < n) -> pevals f h (map (fun j => PV a (IC (n * k + j))) js) = Some (map g js)).
  { induction js as [|j js IH]; intros Hj; [reflexivity|]. cbn [map pevals peval ieval]. rewrite (H j) by (apply Hj; left; reflexivity). rewrite IH by (intros j' Hj'; apply Hj; right; exact Hj'). reflexivity. }
  apply X. intros j Hj. apply in_seq in Hj. lia.
Qed.

Lemma pack_args k f h : k < T -> (forall a, a <> 21 -> h a = pv st a) -> exists ps,
  pargevals f h [CodeVerAll.row 24 (per_proof P) k; CodeVerAll.row 10 3 k; CodeVerAll.row 1 3 k; CodeVerAll.row 2 3 k; CodeVerAll.row 14 3 k; (if is_UR (transf P) then CodeVerAll.row 15 3 k else PL [])] = Some ps /\
  forall ch d m u, ch < 3 -> given k ch (mkState (args 0 [ch]) d (args [] ps) m n0 u).
Proof.
  intros Hk Hh.
  pose proof (row_eval f h 24 pb k (fun e => q (proof_at P k e)) ltac:(intros e He; rewrite Hh by lia; apply (sg_proofs _ _ _ _ _ _ _ _ HM k e Hk He))) as A0.
  pose proof (row_eval f h 10 3 k (fun j => (fst (q I), snd (q I) + (3 * k + j) * kB)) ltac:(intros j Hj; rewrite Hh by lia; apply (sg_seeds _ _ _ _ _ _ _ _ HM); [exact Hk|exact Hj])) as A1.
  pose proof (row_eval f h 1 3 k (fun j => q (R k j)) ltac:(intros j Hj; rewrite Hh by lia; apply (sg_views _ _ _ _ _ _ _ _ HM k j Hk Hj))) as A2.
  pose proof (row_eval f h 2 3 k (fun j => q (R k (3 + j))) ltac:(intros j Hj; rewrite Hh by lia; apply (sg_views _ _ _ _ _ _ _ _ HM k j Hk Hj))) as A3.
  pose proof (row_eval f h 14 3 k (fun j => q (R k (9 + j))) ltac:(intros j Hj; rewrite Hh by lia; apply (sg_commits _ _ _ _ _ _ _ _ HM k j Hk Hj))) as A4.
  assert (A5 : exists l, pargeval f h (if is_UR (transf P) then CodeVerAll.row 15 3 k else PL []) = Some l /\ (is_UR (transf P) = true -> l = map (fun j => q (R k (12 + j))) (seq 0 3))).
  { destruct (is_UR (transf P)) eqn:Hu; [|exists []; split; [reflexivity|discriminate]]. eexists. split; [|reflexivity]. apply row_eval. intros j Hj. rewrite Hh by lia. destruct (sg_commits _ _ _ _ _ _ _ _ HM k j Hk Hj) as [_ X]. apply X, Hu. }
  destruct A5 as (l5 & A5 & B5). change (per_proof P) with pb. eexists. split; [cbn [pargevals]; rewrite A0, A1, A2, A3, A4, A5; reflexivity|].
  intros ch d m u Hch. split; cbn [nx iv pv args nth]; try reflexivity.
  all: [> intros e He; exact (nth_map_seq _ _ e He) | intros e He; exact (nth_map_seq _ _ e He) | intros e He; exact (nth_map_seq _ _ e He) | intros e He; exact (nth_map_seq _ _ e He) | intros e He; exact (nth_map_seq _ _ e He) | ].
  intros Hu j Hj. rewrite (B5 Hu). apply (nth_map_seq (fun j => q (R k (12 + j))) 3 j Hj).
Qed.

Lemma run_pack i y : i < T -> inv i y -> runs U (c_pack P i) y (inv (S i)).
Proof.
  intros Hi (Ny & Py & I2 & I3 & c & H & Hc & Hd). destruct y as [yi yd yp ym yn yc]. cbn [iv dv pv mm nx ct] in *. subst yn. unfold c_pack. pose proof pb_56 as Pb.
  assert (HI2 : I + 2 < cnt vl) by (cbn [vl cnt]; unfold signer_count; fold I; lia). pose proof (numBytes_spec (2 * T)) as Hnb.
  apply runs_seq. apply (h_getChallenge n0 m0 U vl 1 (P0 23) (IC i) _ c (q (I + 2)) cb (chalv cb i)); cbn [iv dv pv mm nx ct ieval].
  { cbn [peval P0 ieval]. rewrite Py by lia. rewrite (sg_chal _ _ _ _ _ _ _ _ HM). reflexivity. }
  { right. exists (I + 2). split; [exact HI2|]. split; [reflexivity|]. rewrite Hc by lia. symmetry. exact C1c. }
  { exact H. } { apply getChallenge_ok. lia. } { lia. }
  intros u1. destruct (pack_args i (upd yi 1 (chalv cb i)) yp Hi Py) as (ps & Eps & Gps). eapply runs_call; [cbn [iv pv]; exact Eps|]. cbn [iv dv pv mm nx ct map ieval]. rewrite upd_eq.
  specialize (Gps (chalv cb i) (args 0%N []) ym u1 (H3cb i Hi)).
  eapply runs_mono; [apply (run_prove i (chalv cb i) Hi (H3cb i Hi) _ c Gps H)|].
  { rewrite Hc by lia. exact C1s. }
  { apply (done_ext i c1); [exact Hi| |apply C1d, Hi]. intros j Hj. apply Hc. lia. }
  intros z (Nz & c' & Hz & Xz & Kz). cbn [copy_back]. split; [exact Nz|]. cbn [pv iv mm]. split; [exact Py|]. split; [rewrite upd_neq by lia; exact I2|]. split; [rewrite upd_neq by lia; exact I3|].
  exists c'. split; [exact Hz|]. split.
  - intros j Hj. rewrite Xz; [apply Hc, Hj|]. intros e He. pose proof (pa_ge i (chalv cb i) Hi (H3cb i Hi) e). lia.
  - intros k Hk. destruct (Nat.eq_dec k i) as [->|Ne]; [exact Kz|]. pose proof (Hd k ltac:(lia)) as (K0 & K1 & K2 & K3 & K4 & K5).
    assert (Y : forall e, e < pb -> c' (proof_at P k e) = c (proof_at P k e)).
    { intros e He. apply Xz. intros e' He'. unfold proof_at. intros Eq. assert (pb * k + e = pb * i + e') by lia. assert (k = i) by nia. congruence. }
    unfold packed. rewrite !Y by lia. repeat (split; [assumption|]). intros Hu. rewrite Y by (rewrite (pb_6 Hu); lia). apply K5, Hu.
Qed.

Lemma run_packs n : forall i y, i + n = T -> inv i y -> runs U (c_packs P (seq i n)) y (inv T).
Proof.
  induction n as [|n IH]; intros i y Hn Hy; cbn [seq c_packs]; [apply runs_skip; replace T with i by lia; exact Hy|]. apply runs_seq. eapply runs_mono; [apply run_pack; [lia|exact Hy]|].
  intros z Hz. apply IH; [lia|exact Hz].
Qed.
End Packs.

(** The challenge. *)
Definition mem_triple (b : nat) (c : nat -> bytes) : list (tri bytes) := map (fun k => (c (R k b), c (R k (b + 1)), c (R k (b + 2)))) (seq 0 T).
Lemma mem_holds lens b (c : nat -> bytes) (F : nat -> nat -> bytes) : (forall k j, k < T -> j < 3 -> lens j <= length (c (R k (b + j))) /\ firstn (lens j) (c (R k (b + j))) = F k j) -> ZkbChal.holds P lens (mem_triple b c) F.
Proof.
  intros Hs. assert (Ln : length (mem_triple b c) = T) by (unfold mem_triple; rewrite map_length, seq_length; reflexivity). split; [exact Ln|]. intros k t Ht j Hj.
  assert (Hk : k < T) by (rewrite <- Ln; apply nth_error_Some; congruence).
  unfold mem_triple in Ht. rewrite nth_map_seq in Ht by exact Hk. injection Ht as <-. specialize (Hs k j Hk Hj).
  destruct (lt3_cases j Hj) as [->|[->| ->]]; [rewrite Nat.add_0_r in Hs|..]; exact Hs.
Qed.

Definition mem_data (c : nat -> bytes) : Prop :=
  ZkbChal.holds P (fun _ => stateSizeBytes P) (mem_triple 6 c) (fun k j => sr_out Es P (seed_of k) salt k sk pt j) /\
  ZkbChal.holds P (fun _ => digestSizeBytes P) (mem_triple 9 c) (fun k j => sr_commit Es P (seed_of k) salt k sk pt j) /\
  (is_UR (transf P) = true -> ZkbChal.holds P (G_len P) (mem_triple 12 c) (fun k j => sr_g Es P (seed_of k) salt k sk pt j)).
Lemma mem_H3 m c : hp m c -> (forall k, k < T -> done k c) -> mem_data c.
Proof.
  intros H Hd. pose proof (per_12 P st) as Pr.
  assert (LEN : forall k j, k < T -> j < per_round P -> length (c (R k j)) = kind_size P j) by (intros k j Hk Hj; rewrite (heap_len _ _ _ _ _ _ H _ (in_count _ (R_in k j Hk Hj))); apply size_R; auto).
  split; [|split].
  { apply mem_holds. intros k j Hk Hj. destruct (proj1 (Hd k Hk) j Hj) as (_ & _ & A). assert (L : length (c (R k (6 + j))) = stateSizeBytes P) by (rewrite LEN by lia; destruct (lt3_cases j Hj) as [->|[->| ->]]; reflexivity).
    split; [lia|]. rewrite firstn_all2 by lia. exact A. }
  { apply mem_holds. intros k j Hk Hj. destruct (proj2 (Hd k Hk) j Hj) as [A _]. assert (L : length (c (R k (9 + j))) = digestSizeBytes P) by (rewrite LEN by lia; destruct (lt3_cases j Hj) as [->|[->| ->]]; reflexivity).
    split; [lia|]. rewrite firstn_all2 by lia. exact A. }
  { intros Hu. pose proof (per_15 P Hu). apply mem_holds. intros k j Hk Hj. destruct (proj2 (Hd k Hk) j Hj) as [_ A]. assert (L : length (c (R k (12 + j))) = UnruhGWithInputBytes P) by (rewrite LEN by lia; destruct (lt3_cases j Hj) as [->|[->| ->]]; reflexivity).
    split; [rewrite L, (w1_Gw P HP1 Hu); unfold G_len; destruct (j =? 2); lia|]. exact (A Hu). }
Qed.

Lemma model_H3 fuel m c : hp m c -> (forall k, k < T -> done k c) ->
  match trits Es P fuel (chal_hash Es P (sign_input Es P sk pub pt msg)) T with
  | None => H3 Es P fuel pub pt (mem_triple 6 c) (mem_triple 9 c) (c (I + 2)) salt msg (mem_triple 12 c) = NoFuel
  | Some ts => H3 Es P fuel pub pt (mem_triple 6 c) (mem_triple 9 c) (c (I + 2)) salt msg (mem_triple 12 c) = Ok (chal_of P ts)
  end.
Proof.
  intros H Hd. destruct (mem_H3 m c H Hd) as (A6 & A9 & A12). destruct (wfP_block P (w1_wfP P HP1)) as [W1 _].
  destruct (sg_pub _ _ _ _ _ _ _ _ HM) as (qb & _ & _ & L13 & _). destruct (sg_pt _ _ _ _ _ _ _ _ HM) as (qp & _ & R4 & _ & L4).
  assert (HI2 : I + 2 < cnt vl) by (cbn [vl cnt]; unfold signer_count; fold I; lia). pose proof (shake_env E HE0) as HE.
  pose proof (H3_spec Es P HP1 fuel pub pt (mem_triple 6 c) (mem_triple 9 c) (mem_triple 12 c) (c (I + 2)) salt msg
    (fun k j => sr_out Es P (seed_of k) salt k sk pt j) (fun k j => sr_commit Es P (seed_of k) salt k sk pt j) (fun k j => sr_g Es P (seed_of k) salt k sk pt j)) as S.
  change (chal_input P _ _ _ pub pt salt msg) with (sign_input Es P sk pub pt msg) in S. change (numMPCRounds P) with T in S.
  specialize (S A6 A9 A12 L13 ltac:(lia) ltac:(apply length_sig_salt, HE) ltac:(rewrite (heap_len _ _ _ _ _ _ H _ HI2); exact size_chal) ltac:(apply (heap_ok _ _ _ _ _ _ H _ HI2))).
  destruct (trits Es P fuel _ T) as [ts|]; [apply S|exact S].
Qed.

(** What H3 is called with. *)
Lemma H3_ready iv' m c : hp m c -> c (I + 1) = salt ->
  exists vo qr, pevals iv' (pv st) (map (fun j => PV 3 (IC j)) (seq 0 (3 * T))) = Some vo /\ CodeHeap.ro n0 m0 vl qr round_constant_bytes /\ snd qr mod 8 = 0 /\
  forall y1, pv y1 = args [] [pv st 9; []; []; vo; pv st 14; pv st 15; pv st 13; pv st 4; pv st 11; pv st 22; []; pv st 23] ->
    pv y1 0 = [qr] /\ pv y1 11 = [reg vl (I + 2)] /\
    gives_triples n0 m0 vl P (I + 2) y1 c 3 (stateSizeBytes P) (stateSizeBytes P) (mem_triple 6 c) /\
    gives_triples n0 m0 vl P (I + 2) y1 c 4 (digestSizeBytes P) (digestSizeBytes P) (mem_triple 9 c) /\
    (is_UR (transf P) = true -> gives_triples n0 m0 vl P (I + 2) y1 c 5 (UnruhGWithoutInputBytes P) (UnruhGWithInputBytes P) (mem_triple 12 c)) /\
    gives n0 m0 vl (I + 2) y1 c 6 0 (stateSizeBytes P) pub /\ gives n0 m0 vl (I + 2) y1 c 7 0 (stateSizeBytes P) pt /\
    gives n0 m0 vl (I + 2) y1 c 8 0 (saltSizeBytes P) salt /\ gives n0 m0 vl (I + 2) y1 c 9 0 (length msg) msg.
Proof.
  intros H CS. pose proof (per_12 P st) as Pr. pose proof (shake_env E HE0) as HE.
  destruct (wfP_block P (w1_wfP P HP1)) as [W1 _]. pose proof (wf_W3 P (w1_wfP P HP1)) as W3.
  destruct (sg_rc _ _ _ _ _ _ _ _ HM) as (qr & E9 & R9 & A9). destruct (sg_sk _ _ _ _ _ _ _ _ HM) as (qk & E12 & R12 & _ & L12 & _ & S12). destruct (sg_pub _ _ _ _ _ _ _ _ HM) as (qb & E13 & R13 & L13 & S13).
  destruct (sg_pt _ _ _ _ _ _ _ _ HM) as (qp & E4 & R4 & _ & L4). destruct (sg_msg _ _ _ _ _ _ _ _ HM) as (qm & E22 & R22 & S22). pose proof (sg_salt _ _ _ _ _ _ _ _ HM) as E11. pose proof (sg_chal _ _ _ _ _ _ _ _ HM) as E23.
  assert (HI1 : I + 1 < cnt vl) by (cbn [vl cnt]; unfold signer_count; fold I; lia). assert (HI2 : I + 2 < cnt vl) by (cbn [vl cnt]; unfold signer_count; fold I; lia).
  assert (EV : pargeval iv' (pv st) (PL (map (fun j => PV 3 (IC j)) (seq 0 (3 * T)))) = Some (map (fun j => q (R (j / 3) (6 + j mod 3))) (seq 0 (3 * T)))).
  { cbn [pargeval]. assert (Y : forall js, (forall j, In j js -> j < 3 * T) -> pevals iv' (pv st) (map (fun j => PV 3 (IC j)) js) = Some (map (fun j => q (R (j / 3) (6 + j mod 3))) js)).
    { induction js as [|j js IH]; intros Hj; [reflexivity|]. cbn [map pevals peval ieval]. rewrite IH by (intros j' Hj'; apply Hj; right; exact Hj').
      specialize (Hj j (or_introl eq_refl)). assert (Hk : j / 3 < T) by (apply Nat.div_lt_upper_bound; lia). pose proof (Nat.mod_upper_bound j 3 ltac:(lia)) as Hr.
      destruct (sg_views _ _ _ _ _ _ _ _ HM (j / 3) (j mod 3) Hk Hr) as (_ & _ & Y). rewrite <- (Nat.div_mod j 3) in Y by lia. rewrite Y. reflexivity. }
    apply Y. intros j Hj. apply in_seq in Hj. lia. }
  set (vo := map (fun j : nat => q (R (j / 3) (6 + j mod 3))) (seq 0 (3 * T))) in EV. exists vo, qr. split; [exact EV|]. split; [apply all_ro, R9|]. split; [exact A9|]. intros y1 Ey.
  assert (SRC : forall k j n, k < T -> j < per_round P -> n <= kind_size P j -> src n0 m0 vl (I + 2) c (q (R k j)) n (c (R k j))).
  { intros k j n Hk Hj Hn. pose proof (R_in k j Hk Hj) as K. pose proof (in_count _ K) as K'. pose proof (heap_len _ _ _ _ _ _ H _ K') as LK. rewrite size_R in LK by assumption.
    split; [right; exists (R k j); split; [exact K'|]; split; [lia|]; split; reflexivity|]. split; [apply (heap_ok _ _ _ _ _ _ H _ K')|]. split; [lia|]. apply (small_short P); [exact HS|]. rewrite LK. unfold kind_size.
    repeat (destruct (_ <? _)); lia. }
  assert (SRO : forall p l n, reads st (signer_writes P q) p l -> n <= length l -> short l -> src n0 m0 vl (I + 2) c p n l) by (intros p l n Rp Hn S; split; [left; apply all_ro, Rp|]; split; [apply Rp|]; split; [exact Hn|exact S]).
  assert (TRI : forall a b n n', b + 2 < per_round P -> n <= kind_size P b -> n <= kind_size P (b + 1) -> n' <= kind_size P (b + 2) -> (forall k j, k < T -> j < 3 -> nth_error (pv y1 a) (3 * k + j) = Some (q (R k (b + j)))) ->
    gives_triples n0 m0 vl P (I + 2) y1 c a n n' (mem_triple b c)).
  { intros a b n n' Hb N1 N2 N3 Hn k Hk. exists (c (R k b)), (c (R k (b + 1))), (c (R k (b + 2))). split; [unfold mem_triple; rewrite nth_map_seq by exact Hk; reflexivity|].
    pose proof (Hn k 0 Hk ltac:(lia)) as B0. pose proof (Hn k 1 Hk ltac:(lia)) as B1. pose proof (Hn k 2 Hk ltac:(lia)) as B2. rewrite !Nat.add_0_r in B0.
    split; [exists (q (R k b)); split; [exact B0|apply SRC; auto; lia]|]. split; [exists (q (R k (b + 1))); split; [exact B1|apply SRC; auto; lia]|exists (q (R k (b + 2))); split; [exact B2|apply SRC; auto; lia]]. }
  assert (GO : gives_triples n0 m0 vl P (I + 2) y1 c 3 (stateSizeBytes P) (stateSizeBytes P) (mem_triple 6 c)).
  { apply TRI; [lia|apply Nat.le_refl|apply Nat.le_refl|apply Nat.le_refl|]. intros k j Hk Hj. rewrite Ey. cbn [args nth]. unfold vo. rewrite nth_map_seq by lia.
    replace ((3 * k + j) / 3) with k by (apply (Nat.div_unique (3 * k + j) 3 k j); lia). replace ((3 * k + j) mod 3) with j by (apply (Nat.mod_unique (3 * k + j) 3 k j); lia). reflexivity. }
  assert (GC : gives_triples n0 m0 vl P (I + 2) y1 c 4 (digestSizeBytes P) (digestSizeBytes P) (mem_triple 9 c)).
  { apply TRI; [lia|apply Nat.le_refl|apply Nat.le_refl|apply Nat.le_refl|]. intros k j Hk Hj. rewrite Ey. apply (sg_commits _ _ _ _ _ _ _ _ HM k j Hk Hj). }
  assert (GG : is_UR (transf P) = true -> gives_triples n0 m0 vl P (I + 2) y1 c 5 (UnruhGWithoutInputBytes P) (UnruhGWithInputBytes P) (mem_triple 12 c)).
  { intros Hu. pose proof (per_15 P Hu). pose proof (w1_Gwo P HP1 Hu) as G1. pose proof (w1_Gw P HP1 Hu) as G2.
    apply TRI; [lia|change (UnruhGWithoutInputBytes P <= UnruhGWithInputBytes P); lia|change (UnruhGWithoutInputBytes P <= UnruhGWithInputBytes P); lia|apply Nat.le_refl|]. intros k j Hk Hj. rewrite Ey. destruct (sg_commits _ _ _ _ _ _ _ _ HM k j Hk Hj) as [_ Y]. apply Y, Hu. }
  rewrite Ey. cbn [args nth]. split; [exact E9|]. split; [exact E23|]. split; [exact GO|]. split; [exact GC|]. split; [exact GG|].
  split.
  { exists qb. split; [rewrite Ey; cbn [args nth]; rewrite E13; reflexivity|]. apply SRO; auto. }
  split.
  { exists qp. split; [rewrite Ey; cbn [args nth]; rewrite E4; reflexivity|]. apply SRO; [exact R4|lia|]. unfold short. rewrite L4. lia. }
  split.
  { exists (q (I + 1)). split; [rewrite Ey; cbn [args nth]; rewrite E11; reflexivity|]. pose proof (length_sig_salt Es P HE sk pub pt msg) as Ls.
    split; [right; exists (I + 1); split; [exact HI1|]; split; [lia|]; split; [reflexivity|symmetry; exact CS]|]. split; [rewrite <- CS; apply (heap_ok _ _ _ _ _ _ H _ HI1)|]. split; [lia|]. apply (small_short P); [exact HS|lia]. }
  { exists qm. split; [rewrite Ey; cbn [args nth]; rewrite E22; reflexivity|]. apply SRO; [exact R22|lia|exact S22]. }
Qed.

Definition sign_result (fuel : nat) (z : state) : Prop :=
  match sign_picnic1 Es P fuel sk pub pt msg with
  | Ok (Some s) => iv z 2 = 1 /\ iv z 3 = 1 /\ signature_stored P z q s
  | Ok None => iv z 2 = 0
  | NoFuel => iv z 2 = 1 /\ iv z 3 = 0
  | _ => False
  end.

Lemma run_sign fuel : runs U (c_sign P (length msg) fuel) st (fun z => chg (nx st) (mm st) (mm z) (signer_writes P q) /\ nx z = nx st /\ sign_result fuel z).
Proof.
  unfold c_sign. apply run_rounds. intros iv' m u c H CI CS X. pose proof (per_12 P st) as Pr. pose proof (shake_env E HE0) as HE.
  destruct (wfP_block P (w1_wfP P HP1)) as [W1 _]. pose proof (wf_W3 P (w1_wfP P HP1)) as W3.
  destruct (sg_rc _ _ _ _ _ _ _ _ HM) as (qr0 & E9 & R90 & A90). destruct (sg_sk _ _ _ _ _ _ _ _ HM) as (qk & E12 & R12 & _ & L12 & _ & S12). destruct (sg_pub _ _ _ _ _ _ _ _ HM) as (qb & E13 & R13 & L13 & S13).
  destruct (sg_pt _ _ _ _ _ _ _ _ HM) as (qp & E4 & R4 & _ & L4). destruct (sg_msg _ _ _ _ _ _ _ _ HM) as (qm & E22 & R22 & S22). pose proof (sg_salt _ _ _ _ _ _ _ _ HM) as E11. pose proof (sg_chal _ _ _ _ _ _ _ _ HM) as E23.
  assert (L4a : stateSizeBytes P <= length pt) by lia. assert (L4b : 4 * stateSizeWords P <= length pt) by lia.
  pose proof (sign_spec Es P HP1 HE HC sk pub pt msg (conj L12 (proj1 (proj2 R12))) (conj L13 (proj1 (proj2 R13))) (conj L4a (conj L4b (proj1 (proj2 R4)))) fuel) as MS.
  change (lowmc_relation Es P sk pt pub) with (lowmc_relation E P sk pt pub) in MS.
  assert (CH : forall m' c', hp m' c' -> chg (nx st) (mm st) m' (signer_writes P q)) by (intros m' c' Hm; exact (heap_chg _ _ _ _ _ _ Hm)).
  eapply runs_if; [cbn [ceval ieval iv]; reflexivity|]. destruct X as [(J2 & Rel & Hd)|[J2 NR]].
  2:{ rewrite J2. cbn [Nat.eqb]. apply runs_skip. cbn [mm nx]. split; [apply (CH m c H)|]. split; [reflexivity|]. unfold sign_result. cbn [iv].
      destruct (sign_picnic1 Es P fuel sk pub pt msg) as [[s|]| | |]; try contradiction; [destruct MS; contradiction|exact J2|destruct MS; contradiction]. }
  rewrite J2. cbn [Nat.eqb].
  assert (HI1 : I + 1 < cnt vl) by (cbn [vl cnt]; unfold signer_count; fold I; lia). assert (HI2 : I + 2 < cnt vl) by (cbn [vl cnt]; unfold signer_count; fold I; lia).
  unfold c_challenge. apply runs_seq. apply runs_seq.
  destruct (H3_ready iv' m c H CS) as (vo & qr & EV & R9 & A9 & RDY).
  eapply runs_pset; [cbn [iv pv]; exact EV|]. unfold set_pv. cbn [iv dv pv mm nx ct].
  eapply runs_call; [cbn [pargevals pargeval pevals iv pv]; reflexivity|]. cbn [iv dv pv mm nx ct map]. rewrite upd_eq. rewrite !upd_neq by lia. set (y1 := mkState _ _ _ _ _ _).
  destruct (RDY y1 eq_refl) as (D1 & D2 & D3 & D4 & D5 & D6 & D7 & D8 & D9).
  assert (HB : (N.of_nat (digestSizeBytes P) + 200 <= 2 ^ 32)%N) by (generalize HS; unfold small; generalize (2 ^ 32)%N; intros; lia).
  pose proof (h_H3 n0 m0 U vl E P (I + 2) HU HB (w1_T P HP1) HD HI2 size_chal qr R9 A9 fuel y1 c (mem_triple 6 c) (mem_triple 9 c) (mem_triple 12 c) pub pt salt msg) as HH.
  eapply runs_mono; [apply HH|]; clear HH.
  all: try assumption.
  intros z (c2 & Hz & Ez & Nz & RES). cbn [y1 nx] in Hz, Nz. pose proof (model_H3 fuel m c H Hd) as MH. cbn [copy_back]. set (z1 := mkState _ _ _ _ _ _).
  eapply runs_if; [cbn [ceval ieval]; reflexivity|]. cbn [z1 iv]. rewrite upd_eq.
  destruct (trits Es P fuel (chal_hash Es P (sign_input Es P sk pub pt msg)) T) as [ts|] eqn:Et; rewrite MH in RES.
  2:{ rewrite RES. cbn [Nat.eqb]. apply runs_skip. cbn [z1 mm nx]. split; [apply (CH _ c2), Hz|]. split; [exact Nz|]. unfold sign_result. change (numMPCRounds P) with T in MS. rewrite Et in MS.
      destruct (sign_picnic1 Es P fuel sk pub pt msg) as [[s|]| | |]; try contradiction; [destruct MS as (_ & ts & A & _); discriminate|]. cbn [z1 iv]. rewrite upd_eq, upd_neq by lia. auto. }
  destruct RES as [I5 K2]. rewrite I5. cbn [Nat.eqb]. change (numMPCRounds P) with T in MS. rewrite Et in MS.
  destruct (sign_picnic1 Es P fuel sk pub pt msg) as [[s|]| | |] eqn:Es1; try contradiction; [|destruct MS; discriminate].
  destruct MS as (_ & ts' & Ets & Lts & Fts & (Sc & Ss & Sl & Sp)). injection Ets as <-. set (cb := chal_of P ts) in *.
  assert (Lcb : length cb = numBytes (2 * T)) by apply chal_of_spec. assert (Hc3 : forall k, k < T -> chalv cb k < 3) by (intros k Hk; apply (chalv_chal_of P ts k); auto).
  assert (C2 : forall j, j < I + 2 -> c2 j = c j) by (intros j Hj; apply Ez; lia).
  eapply runs_mono; [apply (run_packs cb Lcb Hc3 c2)|].
  - rewrite C2 by lia. exact CI.
  - exact K2.
  - intros k Hk. apply (done_ext k c); [exact Hk| |apply Hd, Hk]. intros j Hj. apply C2. lia.
  - reflexivity.
  - split; [exact Nz|]. cbn [z1 iv pv mm]. split; [intros a Ha; apply upd_neq, Ha|]. split; [rewrite upd_neq by lia; exact J2|]. split; [rewrite upd_eq; exact I5|]. exists c2. split; [exact Hz|]. split; [reflexivity|]. intros k Hk. lia.
  - intros w (Nw & _ & Iw2 & Iw3 & c3 & Hw & Xw & Pw). split; [apply (CH _ c3), Hw|]. split; [exact Nw|]. unfold sign_result. rewrite Es1. split; [exact Iw2|]. split; [exact Iw3|].
    assert (PT : forall j, j < cnt vl -> CodeZkbSpec.holds w (q j) (c3 j)) by (intros j Hj; split; [rewrite Nw; apply (heap_pts _ _ _ _ _ _ Hw j Hj)|apply (heap_ok _ _ _ _ _ _ Hw j Hj)]).
    assert (PA : forall k e, k < T -> e < pb -> CodeZkbSpec.holds w (q (proof_at P k e)) (c3 (proof_at P k e)) /\ length (c3 (proof_at P k e)) = proof_size P e).
    { intros k e Hk He. split; [apply PT, at_count; assumption|]. rewrite (heap_len _ _ _ _ _ _ Hw _ (at_count k e Hk He)). apply size_proof, He. }
    pose proof pb_56 as Pb. pose proof (numBytes_spec (2 * T)) as Hnb.
    unfold signature_stored. fold I T. rewrite Sc, Ss. split; [replace salt with (c3 (I + 1)) by (rewrite Xw, C2 by lia; exact CS); apply PT, HI1|].
    split; [replace cb with (c3 (I + 2)) by (rewrite Xw by lia; exact K2); apply PT, HI2|]. split; [apply length_sig_salt, HE|]. split; [exact Lcb|].
    intros k Hk. exists (chalv cb k). destruct (nth_error (s_proofs s) k) as [pr|] eqn:Hn; [|apply nth_error_None in Hn; rewrite Sl in Hn; change (numMPCRounds P) with T in Hn; lia].
    exists pr. split; [apply getChallenge_ok; lia|]. split; [reflexivity|]. pose proof (Sp k pr Hn) as (A1 & A2 & A3 & A4 & A5 & _ & A6). destruct (Pw k Hk) as (B1 & B2 & B3 & B4 & B5 & B6). unfold proof_stored. cbv zeta.
    split; [rewrite A1, <- B1; apply (PA k 0); lia|]. split; [rewrite A2, <- B2; apply (PA k 1); lia|]. split; [intros N0; rewrite (A6 N0), <- (B3 N0); apply (PA k 2); lia|].
    split; [rewrite A3, <- B4; apply (PA k 3); lia|]. split; [rewrite A4, <- B5; apply (PA k 4); lia|]. intros Hu. destruct (A5 Hu) as [_ A5'].
    assert (GL : G_bytes P (chalv cb k) = G_len P (prv (chalv cb k))).
    { unfold G_bytes. rewrite (w1_Gw P HP1 Hu), (w1_Gwo P HP1 Hu). unfold G_len. destruct (lt3_cases _ (Hc3 k Hk)) as [->|[->| ->]]; [change (prv 0 =? 2) with true|change (prv 1 =? 2) with false|change (prv 2 =? 2) with false]; cbv iota; cbn [Nat.eqb]; lia. }
    assert (GS : G_bytes P (chalv cb k) <= UnruhGWithInputBytes P) by (unfold G_bytes; pose proof (w1_Gw P HP1 Hu); pose proof (w1_Gwo P HP1 Hu); destruct (_ =? 0); lia).
    destruct (PA k 5 Hk ltac:(rewrite (pb_6 Hu); lia)) as [[G1 G2] G3]. cbn [proof_size] in G3.
    rewrite GL, A5', <- (B6 Hu), <- GL. split; [split; [apply pts_firstn, G1|apply Forall_firstn, G2]|]. rewrite firstn_length. lia.
Qed.
End S.

Theorem sign_code U E p P st q sk pub pt msg fuel :
  locals_ok U -> get_param_set p = Some P -> is_picnic3 p = false -> env_bytes_ok E -> constants_ok E P ->
  signer_call P E st q sk pub pt msg ->
  exists st' t, run U (c_sign P (length msg) fuel) st = Some (st', t) /\
    chg (nx st) (mm st) (mm st') (signer_writes P q) /\ nx st' = nx st /\
    match sign_picnic1 (with_shake E) P fuel sk pub pt msg with
    | Ok (Some s) => iv st' 2 = 1 /\ iv st' 3 = 1 /\ signature_stored P st' q s
    | Ok None => iv st' 2 = 0
    | NoFuel => iv st' 2 = 1 /\ iv st' 3 = 0
    | _ => False
    end.
Proof.
  intros HU HP Hp HE HC HM. pose proof (run_sign U HU E P (get_param_set_wfP1 p P HP Hp) (get_param_set_small p P HP) (CodeVerRoundThm.get_param_set_digest p P HP) (get_param_set_pos p P HP) HE HC st q sk pub pt msg HM fuel) as R.
  unfold runs in R. destruct (run U _ st) as [[y t]|]; [|contradiction]. exists y, t. split; [reflexivity|exact R].
Qed.
