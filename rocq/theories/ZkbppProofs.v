(** The code for the ZKB++ parameter sets computes the scheme of ZkbppSpec.v. *)

From Coq Require Import List NArith Arith Bool Btauto Lia ZifyBool ZifyNat ZifyN.
From Verif Require Import Base Params Env Spec LowMC Picnic1 Api BaseFacts ParamFacts LowMCFacts
  LowMCInj Hint ZkbMpc Zkb ZkbRound ZkbSign ZkbChal ZkbCodec ZkbTop ApiSpec SigSpec ZkbApi ZkbppSpec.
Import ListNotations.

(** ** Parameters *)
Record conforms (P : paramset) (sp : sparams) : Prop := {
  cf_n : stateSizeBits P = sp_n sp;
  cf_s : numSboxes P = sp_s sp;
  cf_r : numRounds P = sp_r sp;
  cf_shake : use_shake128 P = sp_shake128 sp;
  cf_H : digestSizeBytes P = octets (sp_H sp);
  cf_T : numMPCRounds P = sp_T sp;
  cf_u : numOpenedRounds P = sp_u sp;
  cf_N : numMPCParties P = sp_N sp;
  cf_S : seedSizeBytes P = octets (sp_S sp);
  cf_salt : saltSizeBytes P = 32;
  cf_UR : is_UR (transf P) = sp_UR sp;
  cf_nB : stateSizeBytes P = octets (sp_n sp);
  cf_aB : andSizeBytes P = octets (3 * sp_r sp * sp_s sp)
}.

Definition conforms_b (P : paramset) (sp : sparams) : bool :=
  (stateSizeBits P =? sp_n sp) && (numSboxes P =? sp_s sp) && (numRounds P =? sp_r sp) &&
  Bool.eqb (use_shake128 P) (sp_shake128 sp) && (digestSizeBytes P =? octets (sp_H sp)) &&
  (numMPCRounds P =? sp_T sp) && (numOpenedRounds P =? sp_u sp) && (numMPCParties P =? sp_N sp) &&
  (seedSizeBytes P =? octets (sp_S sp)) && (saltSizeBytes P =? 32) &&
  Bool.eqb (is_UR (transf P)) (sp_UR sp) && (stateSizeBytes P =? octets (sp_n sp)) &&
  (andSizeBytes P =? octets (3 * sp_r sp * sp_s sp)).

Lemma conforms_of_b P sp : conforms_b P sp = true -> conforms P sp.
Proof.
  unfold conforms_b. rewrite !andb_true_iff, !Nat.eqb_eq, !eqb_true_iff.
  intros H. constructor; tauto.
Qed.

Lemma table2_conforms p P : get_param_set p = Some P ->
  exists sp, table2 p = Some sp /\ conforms P sp.
Proof.
  intros H.
  assert (Hb : match table2 p with Some sp => conforms_b P sp | None => false end = true).
  { revert p P H.
    apply (params_forall (fun p P => match table2 p with Some sp => conforms_b P sp | None => false end)).
    vm_compute. reflexivity. }
  destruct (table2 p) as [sp|]; [|discriminate]. exists sp. split; auto. apply conforms_of_b. auto.
Qed.

(** ** Bits and bytes *)
Lemma octets_eq k : octets k = numBytes k.
Proof.
  unfold octets, numBytes. destruct (Nat.eqb_spec k 0) as [->|H]; [reflexivity|].
  replace (k + 7) with (k - 1 + 1 * 8) by lia. rewrite Nat.div_add by lia. reflexivity.
Qed.

Lemma octets_spec k : k <= 8 * octets k < k + 8.
Proof. rewrite octets_eq. apply numBytes_spec. Qed.

Definition octet8 (b0 b1 b2 b3 b4 b5 b6 b7 : bool) : N :=
  octet (fun i => nth i [b0; b1; b2; b3; b4; b5; b6; b7] false).

Lemma octet8_spec b0 b1 b2 b3 b4 b5 b6 b7 :
  byte (octet8 b0 b1 b2 b3 b4 b5 b6 b7) /\
  map (fun i => N.testbit (octet8 b0 b1 b2 b3 b4 b5 b6 b7) (N.of_nat (7 - i))) (seq 0 8) =
  [b0; b1; b2; b3; b4; b5; b6; b7].
Proof. destruct b0, b1, b2, b3, b4, b5, b6, b7; split; reflexivity. Qed.

Lemma octet_spec f : byte (octet f) /\
  forall i, i < 8 -> N.testbit (octet f) (N.of_nat (7 - i)) = f i.
Proof.
  destruct (octet8_spec (f 0) (f 1) (f 2) (f 3) (f 4) (f 5) (f 6) (f 7)) as [H1 H2].
  change (octet8 _ _ _ _ _ _ _ _) with (octet f) in H1, H2. split; auto.
  cbn [seq map] in H2. injection H2 as A0 A1 A2 A3 A4 A5 A6 A7.
  intros i Hi. do 8 (destruct i as [|i]; [assumption|]). exfalso. clear - Hi. lia.
Qed.

Lemma bytes_of_spec k v :
  length (bytes_of k v) = octets k /\ bytes_ok (bytes_of k v) /\
  forall i, bit (bytes_of k v) i = if i <? k then v i else false.
Proof.
  unfold bytes_of. split; [rewrite map_length, seq_length; reflexivity|]. split.
  - apply Forall_forall. intros x Hx. apply in_map_iff in Hx. destruct Hx as (i & <- & _).
    apply octet_spec.
  - intros i. unfold bit. pose proof (octets_spec k) as Ho.
    pose proof (Nat.div_mod i 8 ltac:(lia)) as Hdm. pose proof (mod8_lt i) as Hm.
    destruct (Nat.lt_ge_cases (i / 8) (octets k)) as [Hi|Hi].
    + rewrite nth_indep with (d' := (fun i => octet (fun b => (8 * i + b <? k) && v (8 * i + b))) 0)
        by (rewrite map_length, seq_length; auto).
      rewrite (map_nth (fun i => octet (fun b => (8 * i + b <? k) && v (8 * i + b)))).
      rewrite seq_nth by auto. cbn [Nat.add]. rewrite (proj2 (octet_spec _)) by auto.
      rewrite <- Hdm. destruct (i <? k); reflexivity.
    + rewrite nth_overflow by (rewrite map_length, seq_length; auto).
      rewrite N.bits_0. destruct (Nat.ltb_spec i k); auto. lia.
Qed.

Lemma bytes_of_ext k u v : veq k u v -> bytes_of k u = bytes_of k v.
Proof.
  intros H. destruct (bytes_of_spec k u) as (A1 & A2 & A3). destruct (bytes_of_spec k v) as (B1 & B2 & B3).
  apply bits_ext; auto; [congruence|]. intros i _. rewrite A3, B3.
  destruct (Nat.ltb_spec i k); auto.
Qed.

(** A byte string is determined by its bits. *)
Lemma bytes_of_bit k b : length b = octets k -> bytes_ok b ->
  (forall i, k <= i < 8 * octets k -> bit b i = false) -> bytes_of k (bit b) = b.
Proof.
  intros Hl Hb Hz. destruct (bytes_of_spec k (bit b)) as (A1 & A2 & A3).
  apply bits_ext; auto; [congruence|]. intros i Hi. rewrite A3.
  destruct (Nat.ltb_spec i k); auto. symmetry. apply Hz. lia.
Qed.

Lemma le16_eq k : le16 k = intLE k.
Proof.
  unfold le16, intLE. f_equal; [|f_equal].
  - change 256%N with (N.of_nat 256). lia.
  - change 256%N with (N.of_nat 256). lia.
Qed.

Section Z.
Variable E : env.
Variable P : paramset.
Variable sp : sparams.
Hypothesis HP1 : wfP1 P.
Hypothesis CF : conforms P sp.
Hypothesis HE : env_bytes_ok E.
Hypothesis HC : constants_ok E P.
Let HP : wfP P := w1_wfP P HP1.

Let L := lowmc_of E P.
Let n := stateSizeBits P.
Let m := numSboxes P.
Let R := numRounds P.
Let sB := stateSizeBytes P.
Let aB := andSizeBytes P.

Lemma spec_lowmc_eq : spec_lowmc E P sp = L.
Proof.
  unfold spec_lowmc, L, lowmc_of. cbn [lm_K lm_L lm_C].
  rewrite (cf_n P sp CF), (cf_s P sp CF), (cf_r P sp CF). reflexivity.
Qed.

Lemma hash_eq pre chunks len :
  hash E P pre chunks len = KDF E sp (prefix_bytes pre ++ concat chunks) len.
Proof. unfold hash, KDF. rewrite (cf_shake P sp CF). reflexivity. Qed.

Lemma Hi_eq i x : Hi E sp i x = hash E P (Some i) [x] (digestSizeBytes P).
Proof.
  rewrite hash_eq. unfold Hi. rewrite (cf_H P sp CF). cbn [concat prefix_bytes].
  rewrite app_nil_r. reflexivity.
Qed.

(** ** MPC evaluation *)
Notation mpc_state' := (mpc_state sp L).
Notation mpc_view' := (mpc_view sp L).

Lemma gate_div i q : q < 3 * m -> (3 * m * i + q) / (3 * m) = i /\ (3 * m * i + q) mod (3 * m) = q.
Proof.
  intros Hq. rewrite (Nat.mul_comm (3 * m) i), Nat.add_comm. split.
  - rewrite Nat.div_add by lia. rewrite Nat.div_small; auto.
  - rewrite Nat.mod_add by lia. apply Nat.mod_small; auto.
Qed.

Lemma mpc_sbox_h v z h base i :
  (forall q, q < 3 * m -> z q = h (base + q)) -> mpc_sbox sp v z i = hsbox m base v h i.
Proof.
  intros H. unfold mpc_sbox, hsbox. rewrite <- (cf_s P sp CF). fold m.
  destruct (Nat.ltb_spec i (3 * m)) as [Hi|]; auto.
  pose proof (div3_spec i). destruct (split3 i m Hi) as (k & x & Hk & Hx & ->).
  destruct (mod3_cases k x Hx) as [-> ->]. cbv zeta.
  destruct x as [|[|x]]; rewrite H by lia; rewrite ?Nat.add_assoc; reflexivity.
Qed.

Lemma mpc_round_h c x i v z h :
  (forall q, q < 3 * m -> z q = h (3 * m * i + q)) ->
  forall j, mpc_round sp L c x i v z j =
    xorb (xorb (matvec n (lm_L L i) (hsbox m (3 * m * i) v h) j) (c && lm_C L i j))
         (matvec n (lm_K L (S i)) x j).
Proof.
  intros H j. unfold mpc_round, vxor, when. rewrite <- (cf_n P sp CF). fold n. f_equal. f_equal.
  apply matvec_ext. intros l Hl. apply mpc_sbox_h; auto.
Qed.

Lemma mpc_state_hst x rnd p i j :
  veq n (mpc_state' x rnd p i j) (hst L (j =? 0) (x j) p (transcript (mpc_view' x rnd p j)) i).
Proof.
  induction i as [|i IH]; intros l Hl.
  - cbn [mpc_state hst]. unfold vxor, when. rewrite <- (cf_n P sp CF). reflexivity.
  - cbn [mpc_state hst]. cbv zeta.
    rewrite (mpc_round_h _ _ _ _ _ (transcript (mpc_view' x rnd p j))).
    + f_equal. f_equal. apply matvec_ext. intros a Ha.
      apply (hsbox_ext n); auto; [apply (wf_m P HP)].
    + intros q Hq. cbn [mpc_view transcript]. rewrite <- (cf_s P sp CF). fold m.
      destruct (gate_div i q Hq) as [-> ->]. reflexivity.
Qed.

Lemma and_left_at v k x : x < 3 -> and_left v (3 * k + x) = v (gin1 k x).
Proof. intros Hx. unfold and_left, gin1. destruct (mod3_cases k x Hx) as [-> ->]. destruct x as [|[|x]]; auto. Qed.
Lemma and_right_at v k x : x < 3 -> and_right v (3 * k + x) = v (gin2 k x).
Proof. intros Hx. unfold and_right, gin2. destruct (mod3_cases k x Hx) as [-> ->]. destruct x as [|[|x]]; auto. Qed.

Lemma mpc_and_eq a a' b b' r r' : mpc_and a a' b b' r r' = andf a b a' b' r r'.
Proof. reflexivity. Qed.

Lemma gin1_lt k x : k < m -> x < 3 -> gin1 k x < n.
Proof. intros Hk Hx. pose proof (wf_m P HP). fold n m in H. unfold gin1. destruct x as [|[|x]]; lia. Qed.
Lemma gin2_lt k x : k < m -> x < 3 -> gin2 k x < n.
Proof. intros Hk Hx. pose proof (wf_m P HP). fold n m in H. unfold gin2. destruct x as [|[|x]]; lia. Qed.

Lemma gpos_lt i k x : i < R -> k < m -> x < 3 -> gpos m i k x < 3 * m * R.
Proof. intros. unfold gpos. nia. Qed.

Lemma gates_spec x rnd p j : j < 3 ->
  let st j := hst L (j =? 0) (x j) p (transcript (mpc_view' x rnd p j)) in
  gates L (st j) (st (nxt j)) (transcript (mpc_view' x rnd p j)) (rnd j) (rnd (nxt j)).
Proof.
  intros Hj st i k g Hi Hk Hg. cbv zeta. unfold gpos. cbn [mpc_view transcript].
  rewrite <- (cf_s P sp CF). fold m.
  change (lm_m L) with m in *. assert (Hq : 3 * k + g < 3 * m) by lia.
  destruct (gate_div i (3 * k + g) Hq) as [-> ->].
  unfold gate_out. cbv zeta. rewrite mpc_and_eq, !and_left_at, !and_right_at by auto.
  rewrite <- (cf_s P sp CF). fold m. change (party_after j) with (nxt j).
  unfold st. rewrite !mpc_state_hst by (auto using gin1_lt, gin2_lt). reflexivity.
Qed.

(** The views of the specification as byte strings. *)
Definition view_bytes (v : zview) : view :=
  mkView (bytes_of n (iShare v)) (bytes_of (3 * R * m) (transcript v)) (bytes_of n (oShare v)).

Lemma spec_views x rnd p ins tapes pt :
  (forall j, j < 3 -> ins j = bytes_of n (x j)) ->
  (forall j g, j < 3 -> g < 3 * m * R -> bit (tapes j) g = rnd j g) ->
  veq n (bit pt) p ->
  mpc_views E P ins tapes pt
    (view_bytes (mpc_view' x rnd p 0), view_bytes (mpc_view' x rnd p 1), view_bytes (mpc_view' x rnd p 2)).
Proof.
  intros Hin Ht Hp. pose proof (wf_m P HP) as Hmn. fold n m in Hmn.
  set (V j := mpc_view' x rnd p j).
  assert (Hv : forall j, j < 3 -> tget (view_bytes (V 0), view_bytes (V 1), view_bytes (V 2)) j = view_bytes (V j)).
  { intros j Hj. destruct (lt3 j Hj) as [->|[->| ->]]; reflexivity. }
  assert (Hst : forall j i, j < 3 -> i <= R -> veq n
     (hst L (cst j) (bit (ins j)) (bit pt) (bit (v_communicatedBits (view_bytes (V j)))) i)
     (hst L (j =? 0) (x j) p (transcript (V j)) i)).
  { intros j i Hj Hi. apply (hst_ext L); auto.
    - intros l Hl. rewrite Hin by auto. destruct (bytes_of_spec n (x j)) as (_ & _ & ->).
      change (lm_n L) with n in Hl. replace (l <? n) with true by lia. auto.
    - intros g Hg. change (lm_m L) with m in Hg. cbn [view_bytes v_communicatedBits].
      destruct (bytes_of_spec (3 * R * m) (transcript (V j))) as (_ & _ & ->).
      replace (g <? 3 * R * m) with true by nia. auto. }
  intros j Hj. rewrite !Hv by (auto; apply nxt_lt).
  cbn [view_bytes v_inputShare v_communicatedBits v_outputShare].
  destruct (bytes_of_spec (3 * R * m) (transcript (V j))) as (C1 & C2 & C3).
  destruct (bytes_of_spec n (oShare (V j))) as (O1 & O2 & O3).
  split; [symmetry; apply Hin; auto|].
  split; [rewrite C1; symmetry; unfold R, m; rewrite (cf_r P sp CF), (cf_s P sp CF); apply (cf_aB P sp CF)|].
  split; [exact C2|].
  split.
  { intros g Hg. rewrite C3. fold m R in Hg. replace (g <? 3 * R * m) with false by nia. auto. }
  split.
  { split; [rewrite O1, (cf_nB P sp CF), <- (cf_n P sp CF); reflexivity|]. split; [exact O2|].
    intros i. rewrite O3. fold n. destruct (Nat.ltb_spec i n) as [Hi|]; auto.
    unfold V at 1. cbn [mpc_view oShare]. rewrite mpc_state_hst by auto.
    rewrite <- (cf_r P sp CF). symmetry. apply Hst; auto. }
  pose proof (gates_spec x rnd p j Hj) as G. cbv zeta in G.
  eapply gates_ext; [exact Hmn| | | |exact G].
  - intros i Hi l Hl. symmetry. exact (Hst j i Hj (Nat.lt_le_incl _ _ Hi) l Hl).
  - intros i Hi l Hl. symmetry. exact (Hst (nxt j) i (nxt_lt j) (Nat.lt_le_incl _ _ Hi) l Hl).
  - intros g Hg. change (g < 3 * m * R) in Hg.
    rewrite C3. replace (g <? 3 * R * m) with true by nia.
    rewrite !Ht by (auto; apply nxt_lt). auto.
Qed.
End Z.
