(** Verification with a Picnic3 parameter set computes kkw_verify. *)

From Coq Require Import List NArith Arith Bool Btauto Lia ZifyBool ZifyNat ZifyN.
From Verif Require Import Base Params Env Spec LowMC Tree Picnic3 Api ApiSpec SigSpec BaseFacts ParamFacts ApiFacts LowMCFacts
  LowMCInj UtilFacts ZkbChal TreeShape TreeSeed TreeReveal TreeOpen TreeMissing TreeMerkle TreeVerify TreeSpec TreeTop
  P3Tape P3Aux P3Online P3Mask P3Chal P3Round P3Seeds P3Verify P3Codec P3Api
  ZkbppSpec ZkbppProofs ZkbppProofs4 KkwSpec KkwTree KkwNodes KkwChal KkwOnline KkwSign.
Import ListNotations.

Local Opaque pack.

Definition noopen : kopen := mkKopen [] [] [] [] [].

(** The opening of a repetition, as read by the specification. *)
Definition kopen_of (u : nat) (q : proof2) : kopen :=
  mkKopen (q_seedInfo q) (if u =? 15 then [] else q_aux q) (q_input q) (q_msgs q) (q_C q).
Definition kopen_at (C L : list nat) (t : nat) (o : option proof2) : kopen :=
  if contains C t then match o with Some q => kopen_of (party C L t) q | None => noopen end else noopen.

Section Z.
Variable E : env.
Variable P : paramset.
Variable sp : sparams.
Hypothesis HP3 : wfP3 P.
Hypothesis CF : conforms P sp.
Hypothesis HE : env_bytes_ok E.

Let n := stateSizeBits P.
Let R := numRounds P.
Let W := stateSizeWords P.
Let sB := stateSizeBytes P.
Let aB := andSizeBytes P.
Let tS := p3_tapeSize P.
Let sz := seedSizeBytes P.
Let sl := saltSizeBytes P.
Let dg := digestSizeBytes P.
Let T := numMPCRounds P.
Let DT := Nat.log2_up T.
Let L := lowmc_of E P.
Let Ki := spec_K0inv E P.
Let Li := spec_Linv E P.
Let HT : 2 <= T <= 1024 := T_rng P HP3.

(** ** Parsing *)
Lemma padz_eq b : length b = aB -> zero_padding (sp_n sp * sp_r sp) b = padz P b.
Proof.
  intros Hb. apply eq_true_iff_eq. rewrite zero_padding_iff. rewrite (proj2 (padz_ok P HP3 b Hb)).
  rewrite (aB_octets P sp HP3 CF). rewrite (sp_n_eq P sp CF), (sp_r_eq P sp CF). reflexivity.
Qed.

Section CL.
Variables C Lp : list nat.
Hypothesis Hw : chal_wf P C Lp.

Lemma reveal16 u : u < 16 -> length (reveal 16 [u]) = 4.
Proof.
  intros Hu. rewrite <- (reveal_eq 16 H16) by (constructor; auto). apply rvs16; auto.
Qed.

Lemma kread_open_enc t q rest : contains C t = true -> rwf P C Lp t (Some q) ->
  kread_open sp (party C Lp t) (renc C Lp t (Some q) ++ rest) =
  if rpad P C Lp t (Some q) then Some (kopen_of (party C Lp t) q, rest) else None.
Proof.
  intros Hc. unfold rwf, renc, rpad. rewrite Hc. intros (q' & [= <-] & (Q1 & Q2 & Q3 & Q4 & Q5 & _) & Qa).
  apply contains_In in Hc. destruct (unopened_party_ok P C Lp t Hw Hc) as [_ Hp].
  set (u := party C Lp t) in *. unfold kread_open. rewrite (sp_N_eq P sp HP3 CF). change (16 - 1) with 15.
  rewrite (reveal16 u Hp). rewrite <- (cf_S P sp CF), <- (cf_nB P sp CF), <- (cf_H P sp CF).
  replace (octets (3 * sp_r sp * sp_s sp)) with aB by (apply (cf_aB P sp CF)).
  rewrite <- !app_assoc. rewrite read_app by auto. unfold kopen_of.
  destruct (u =? 15).
  - cbn [app orb]. rewrite read_app by auto. rewrite read_app by auto. rewrite read_app by auto.
    cbn [orb andb]. rewrite (padz_eq _ Q5). reflexivity.
  - rewrite read_app by auto. rewrite read_app by auto. rewrite read_app by auto. rewrite read_app by auto.
    cbn [orb andb]. rewrite (padz_eq _ Q2), (padz_eq _ Q5). reflexivity.
Qed.

Lemma kread_rounds_enc (f : nat -> option proof2) rest k : forall i,
  (forall t, i <= t < i + k -> rwf P C Lp t (f t)) ->
  kread_rounds sp C Lp (seq i k) (concat (map (fun t => renc C Lp t (f t)) (seq i k)) ++ rest) =
  if forallb (fun t => rpad P C Lp t (f t)) (seq i k)
  then Some (map (fun t => kopen_at C Lp t (f t)) (seq i k), rest) else None.
Proof.
  induction k as [|k IH]; intros i Hf; [reflexivity|]. cbn [seq map concat forallb kread_rounds].
  pose proof (Hf i ltac:(lia)) as Hi. rewrite member_contains. unfold kopen_at at 1.
  destruct (contains C i) eqn:Ec.
  - destruct (f i) as [q|] eqn:Eq.
    2:{ unfold rwf in Hi. rewrite Ec in Hi. destruct Hi as (q & Hq & _). discriminate. }
    rewrite (unopened_eq P C Lp i Hw) by (apply contains_In; auto). rewrite <- app_assoc.
    rewrite kread_open_enc by auto. destruct (rpad P C Lp i (Some q)); cbn [andb]; [|reflexivity].
    rewrite IH by (intros t Ht; apply Hf; lia).
    destruct (forallb _ _); reflexivity.
  - unfold renc at 1, rpad at 1. rewrite Ec. cbn [app andb]. rewrite IH by (intros t Ht; apply Hf; lia).
    destruct (forallb _ _); reflexivity.
Qed.

(** Lengths of what is accepted. *)
Lemma kread_open_len t b o rest : contains C t = true ->
  kread_open sp (party C Lp t) b = Some (o, rest) -> length b = plen P C Lp t + length rest.
Proof.
  intros Hc. unfold plen. rewrite Hc. apply contains_In in Hc. destruct (unopened_party_ok P C Lp t Hw Hc) as [_ Hp].
  set (u := party C Lp t) in *. unfold kread_open. rewrite (sp_N_eq P sp HP3 CF). change (16 - 1) with 15.
  rewrite (reveal16 u Hp). rewrite <- (cf_S P sp CF), <- (cf_nB P sp CF), <- (cf_H P sp CF).
  replace (octets (3 * sp_r sp * sp_s sp)) with aB by (apply (cf_aB P sp CF)).
  fold sz sB dg aB. intros H.
  destruct (read (4 * sz) b) as [[x1 b1]|] eqn:R1; [|discriminate]. apply read_inv in R1. destruct R1 as [-> L1].
  destruct (u =? 15).
  - destruct (read sB b1) as [[x3 b3]|] eqn:R3; [|discriminate]. apply read_inv in R3. destruct R3 as [-> L3].
    destruct (read aB b3) as [[x4 b4]|] eqn:R4; [|discriminate]. apply read_inv in R4. destruct R4 as [-> L4].
    destruct (read dg b4) as [[x5 b5]|] eqn:R5; [|discriminate]. apply read_inv in R5. destruct R5 as [-> L5].
    destruct (_ && _); [|discriminate]. injection H as _ <-. rewrite !app_length. lia.
  - destruct (read aB b1) as [[x2 b2]|] eqn:R2; [|discriminate]. apply read_inv in R2. destruct R2 as [-> L2].
    destruct (read sB b2) as [[x3 b3]|] eqn:R3; [|discriminate]. apply read_inv in R3. destruct R3 as [-> L3].
    destruct (read aB b3) as [[x4 b4]|] eqn:R4; [|discriminate]. apply read_inv in R4. destruct R4 as [-> L4].
    destruct (read dg b4) as [[x5 b5]|] eqn:R5; [|discriminate]. apply read_inv in R5. destruct R5 as [-> L5].
    destruct (_ && _); [|discriminate]. injection H as _ <-. rewrite !app_length. lia.
Qed.

Lemma kread_rounds_len k : forall i b os rest,
  kread_rounds sp C Lp (seq i k) b = Some (os, rest) ->
  length b = list_sum (map (plen P C Lp) (seq i k)) + length rest.
Proof.
  induction k as [|k IH]; intros i b os rest H; cbn [seq kread_rounds map] in *.
  - injection H as _ <-. reflexivity.
  - change (list_sum (plen P C Lp i :: map (plen P C Lp) (seq (S i) k)))
      with (plen P C Lp i + list_sum (map (plen P C Lp) (seq (S i) k))).
    rewrite member_contains in H. destruct (contains C i) eqn:Ec.
    + rewrite (unopened_eq P C Lp i Hw) in H by (apply contains_In; auto).
      destruct (kread_open sp (party C Lp i) b) as [[o b1]|] eqn:E1; [|discriminate].
      apply kread_open_len in E1; auto.
      destruct (kread_rounds sp C Lp (seq (S i) k) b1) as [[os' b2]|] eqn:E2; [|discriminate].
      apply IH in E2. injection H as _ <-. lia.
    + destruct (kread_rounds sp C Lp (seq (S i) k) b) as [[os' b2]|] eqn:E2; [|discriminate].
      apply IH in E2. injection H as _ <-. unfold plen at 1. rewrite Ec. lia.
Qed.

Lemma sizes_eq : length (reveal (sp_T sp) C) = length (rvs T C) /\
  length (open_nodes (sp_T sp) (not_in sp C)) = length (mrvs T (others P C)).
Proof.
  pose proof Hw as (_ & _ & HC & _).
  rewrite <- (cf_T P sp CF), (not_in_eq P sp CF). fold T.
  rewrite <- (reveal_eq T HT) by exact HC. rewrite <- (open_eq T HT) by apply others_lt. auto.
Qed.

Lemma kparse_len h salt b z : length h = dg -> length salt = sl ->
  kparse sp C Lp h salt b = Some z -> length (h ++ salt ++ b) = slen P C Lp.
Proof.
  intros Hh Hs. unfold kparse. destruct sizes_eq as [-> ->].
  rewrite <- (cf_S P sp CF), <- (cf_H P sp CF), <- (cf_T P sp CF). fold sz dg T. intros H.
  destruct (read _ b) as [[x1 b1]|] eqn:R1; [|discriminate]. apply read_inv in R1. destruct R1 as [-> L1].
  destruct (read _ b1) as [[x2 b2]|] eqn:R2; [|discriminate]. apply read_inv in R2. destruct R2 as [-> L2].
  destruct (kread_rounds _ _ _ _ _) as [[os [|]]|] eqn:R3; try discriminate.
  apply kread_rounds_len in R3. rewrite !app_length. unfold slen. fold dg sl sz T. cbn [length] in R3. lia.
Qed.
End CL.

Definition ksig_of (s : signature2) : ksig :=
  mkKsig (g_challengeHash s) (g_salt s) (g_iSeedInfo s) (g_cvInfo s)
    (map (fun t => kopen_at (g_challengeC s) (g_challengeP s) t (nth t (g_proofs s) None)) (seq 0 T)).

Lemma kparse_enc s : sig3_raw P s ->
  exists b, enc3 P s = g_challengeHash s ++ g_salt s ++ b /\
  kparse sp (g_challengeC s) (g_challengeP s) (g_challengeHash s) (g_salt s) b =
  if all_pads P s then Some (ksig_of s) else None.
Proof.
  intros (H1 & H2 & H3 & H4 & H5 & H6 & H7). unfold enc3. eexists. split; [reflexivity|].
  unfold kparse. destruct (sizes_eq _ _ H3) as [-> ->].
  rewrite <- (cf_S P sp CF), <- (cf_H P sp CF), <- (cf_T P sp CF). fold T.
  rewrite read_app by auto. rewrite read_app by auto.
  pose proof (kread_rounds_enc _ _ H3 (fun t => nth t (g_proofs s) None) [] T 0 ltac:(intros t Ht; apply H7; lia)) as Hk.
  rewrite app_nil_r in Hk. fold T. rewrite Hk. unfold all_pads. fold T. destruct (forallb _ _); reflexivity.
Qed.

(** ** Checking *)
Section V.
Variable s : signature2.
Variables (pub pt msg : bytes).
Hypothesis Hr : sig3_raw P s.
Hypothesis Hpt : 4 * W <= length pt.
Hypothesis Hpub : sB <= length pub.

Let C := g_challengeC s.
Let Lp := g_challengeP s.
Let z := ksig_of s.
Let Cb := block P pub.
Let pb := block P pt.
Let Hwf : sig3_wf P s := raw_wf P s Hr.
Let Hw : chal_wf P C Lp := proj1 (proj2 (proj2 Hr)).

Lemma salt32 : length (g_salt s) = 32.
Proof. pose proof Hr as [H1 _]. rewrite H1. apply (cf_salt P sp CF). Qed.

Lemma vopen_eq t : In t C -> t < T -> vopen z t = kopen_of (party C Lp t) (pf s t).
Proof.
  intros Hin Ht. unfold vopen, z, ksig_of. cbn [ks_open]. fold noopen. rewrite nth_map_seq by auto.
  unfold kopen_at. fold C Lp. replace (contains C t) with true by (symmetry; apply contains_In; auto).
  unfold pf. destruct Hwf as (_ & _ & _ & _ & _ & H). destruct (H t Hin) as (q & -> & _). reflexivity.
Qed.

Lemma C_T t : In t C -> t < T.
Proof. intros Hin. pose proof Hw as (_ & _ & H & _). rewrite Forall_forall in H. apply H; auto. Qed.

Lemma vhid_eq t : In t C -> vhid C Lp t = vparty s t.
Proof. intros Hin. apply (unopened_eq P); auto. Qed.

Lemma viSeed_eq t : t < T -> ~ In t C ->
  viSeed E sp C z t = nd (viseeds E P s) (nF DT + t).
Proof.
  intros Ht Hin. unfold viSeed, viseeds. rewrite <- (cf_T P sp CF). fold T. cbn [z ksig_of ks_iSeeds ks_salt].
  apply (recover_leaf_eq E P sp); auto using salt32.
  - apply (C_lt P s Hwf).
  - apply (C_ne P s pub pt HP3 Hwf Hpt Hpub).
  - apply Hr.
Qed.

Lemma iseed_sz t : t < T -> length (nd (viseeds E P s) (nF DT + t)) = sz.
Proof.
  intros Ht. destruct (viseeds_ok E P s pub pt HP3 HE Hwf Hpt Hpub) as (t0 & _ & _ & Hs).
  unfold nd. apply (sh_nl _ _ _ _ Hs). unfold nN, nF, DT, T in *. lia.
Qed.

(** Parties whose seed the verifier knows. *)
Definition known (t j : nat) : Prop := In t C -> j <> vparty s t.

Lemma vseed_eq t j : t < T -> j < 16 -> known t j ->
  KkwSpec.vseed E sp C Lp z t j = leaf16 (P3Verify.vseeds E P s t) j.
Proof.
  intros Ht Hj Hk. unfold KkwSpec.vseed, P3Verify.vseeds. rewrite member_contains. fold C.
  rewrite (sp_N_eq P sp HP3 CF). unfold leaf16.
  destruct (contains C t) eqn:Ec.
  - apply contains_In in Ec. rewrite vhid_eq by auto. rewrite vopen_eq by auto. cbn [kopen_of ko_seeds].
    destruct (pf_ok P s pub pt Hwf Hpt Hpub t Ec) as [_ (Q1 & _)]. destruct (party_lt P s Hwf t Ec) as [_ Hp].
    apply (recover_leaf_eq E P sp HP3 CF HE 16 H16); auto using salt32.
    + discriminate.
    + rewrite rvs16 by auto. exact Q1.
    + intros [<-|[]]. apply Hk; auto.
  - apply contains_false in Ec. rewrite viSeed_eq by auto.
    apply (seed_leaf_eq E P sp HP3 CF HE 16 H16); auto using salt32. apply iseed_sz; auto.
Qed.

Lemma vleaf_sz t j : t < T -> j < 16 -> length (leaf16 (P3Verify.vseeds E P s t) j) = sz.
Proof.
  intros Ht Hj. destruct (vseeds_ok E P s pub pt HP3 HE Hwf Hpt Hpub t Ht) as [_ Hs].
  unfold leaf16, nd. apply (sh_nl _ _ _ _ Hs). unfold nN, nF. cbn. lia.
Qed.

Lemma vtp_eq t j p : t < T -> j < 16 -> known t j ->
  vtp E sp C Lp z t j p = tbit (P3Verify.vtapes0 E P s t) j p.
Proof.
  intros Ht Hj Hk. unfold vtp, P3Verify.vtapes0. rewrite vseed_eq by auto. cbn [z ksig_of ks_salt].
  apply (ktape_eq E P sp CF (leaf16 (P3Verify.vseeds E P s t))); auto using salt32. apply vleaf_sz; auto.
Qed.

Lemma vC_eq t j : t < T -> j < 16 ->
  vC E sp L Ki Li C Lp z t j = nth j (P3Verify.vrow E P s t) [].
Proof.
  intros Ht Hj. unfold vC, P3Verify.vrow. rewrite member_contains. fold C.
  destruct (contains C t) eqn:Ec; cbn [andb].
  - pose proof Ec as Hin. apply contains_In in Hin. rewrite vhid_eq by auto. unfold row_open. rewrite nth_map_seq by auto.
    destruct (pf_ok P s pub pt Hwf Hpt Hpub t Hin) as [_ (Q1 & Q2 & Q3 & _)]. rewrite vopen_eq by auto. cbn [kopen_of ko_C].
    destruct (Nat.eqb_spec j (vparty s t)) as [->|Hne]; [symmetry; apply firstn_all2; lia|].
    rewrite vseed_eq by (auto; intros _; auto). unfold vaux. rewrite member_contains, Ec, vopen_eq by auto. cbn [kopen_of ko_aux].
    fold (vparty s t). cbn [z ksig_of ks_salt].
    destruct (Nat.eqb_spec (party C Lp t) 15) as [Hu|Hu].
    + assert (Hj15 : j <> 15) by (intros ->; apply Hne; symmetry; exact Hu).
      etransitivity; [apply (commit_seed_eq E P sp HP3 CF (leaf16 (P3Verify.vseeds E P s t)) [] (g_salt s) t j);
        auto using salt32, vleaf_sz; intros H; contradiction|].
      unfold com. replace (j =? 15) with false by lia. reflexivity.
    + apply (commit_seed_eq E P sp HP3 CF (leaf16 (P3Verify.vseeds E P s t))); auto using salt32, vleaf_sz.
  - apply contains_false in Ec. unfold row_full. rewrite nth_map_seq by auto.
    rewrite vseed_eq by (auto; intros H; contradiction).
    assert (Ha : vaux E sp L Ki Li C Lp z t = aux_of P (P3Verify.vtapes E P s t)).
    { unfold vaux, P3Verify.vtapes. rewrite member_contains. fold C.
      replace (contains C t) with false by (symmetry; apply contains_false; auto).
      apply (aux_bytes_eq E P sp HP3 CF); [apply vtapes0_rows; auto|].
      intros j' p Hj'. apply vtp_eq; auto. intros H; contradiction. }
    rewrite Ha. cbn [z ksig_of ks_salt].
    apply (commit_seed_eq E P sp HP3 CF (leaf16 (P3Verify.vseeds E P s t))); auto using salt32, vleaf_sz.
    intros _. apply aux_of_spec; auto.
Qed.

(** *** Online phase *)
Section T.
Variable t : nat.
Hypothesis Hin : In t C.
Let Ht : t < T := C_T t Hin.
Let u := vparty s t.
Let Hu : u < 16 := proj2 (party_lt P s Hwf t Hin).
Let q := pf s t.

Lemma votapes_eq j p : j < 16 -> isu (Some u) j = false ->
  KkwSpec.vtapes E sp C Lp z t j p = tbit (votl E P s t) j p.
Proof.
  intros Hj Hiu. cbn [isu] in Hiu. assert (Hne : j <> u) by lia.
  unfold KkwSpec.vtapes, votl. fold u.
  assert (Hnth : forall l : list bytes, rows 16 tS l -> tbit (list_set l u (zeros (p3_tapeSize P))) j p = tbit l j p).
  { intros l [Hl _]. unfold tbit. rewrite nth_list_set by lia. rewrite Hiu. reflexivity. }
  rewrite vopen_eq by auto. cbn [kopen_of ko_aux]. fold (vparty s t). fold u q.
  pose proof (vtapes0_rows E P s HE t) as Hr0.
  (* replace the tape of the hidden party *)
  set (tp := fun i => if i =? u then bit (nth u (P3Verify.vtapes0 E P s t) []) else vtp E sp C Lp z t i).
  assert (Htp : forall i p', i < 16 -> tp i p' = tbit (P3Verify.vtapes0 E P s t) i p').
  { intros i p' Hi. unfold tp. destruct (Nat.eqb_spec i u) as [->|Hn]; [reflexivity|].
    apply vtp_eq; auto. intros _. exact Hn. }
  assert (Hset : forall aux, set_aux sp (vtp E sp C Lp z t) aux j p = set_aux sp tp aux j p).
  { intros aux. unfold set_aux, tp. rewrite Hiu. reflexivity. }
  rewrite Hset. destruct (Nat.eqb_spec u 15) as [H15|H15].
  - rewrite Hnth by auto. unfold set_aux. rewrite (sp_N_eq P sp HP3 CF). change (16 - 1) with 15.
    replace (j =? 15) with false by lia. cbn [andb]. apply Htp; auto.
  - rewrite Hnth by (apply with_aux_spec; auto). change (party C Lp t) with u.
    replace (u =? 15) with false by lia. apply (set_aux_with E P sp HP3 CF); auto.
Qed.

Lemma hidden_eq :
  match vhidden C Lp z t, Some u with
  | Some (h, ms), Some v => h = v /\ forall k, ms k = given_msgs (Some u) (vml P s t) k
  | _, _ => False
  end.
Proof.
  unfold vhidden. rewrite vhid_eq by auto. split; [reflexivity|]. intros k. rewrite vopen_eq by auto.
  cbn [kopen_of ko_msgs given_msgs]. unfold vml, tbit. fold u.
  rewrite nth_list_set by (rewrite (proj1 (zero_msgs_rows P)); auto). rewrite Nat.eqb_refl. reflexivity.
Qed.

Lemma vpt_veq : veq n (bit pb) (bit pt).
Proof.
  intros i Hi. unfold pb, block. apply bit_firstn. pose proof (n_sB P HP3). unfold n in Hi. lia.
Qed.

Lemma key_eq : ko_key (vopen z t) = q_input q.
Proof. rewrite vopen_eq by auto. reflexivity. Qed.

Lemma vmsgs_eq j : j < 16 ->
  KkwSpec.vmsgs E sp L pb C Lp z t j = nth j (vms E P s pt t) [].
Proof.
  intros Hj. unfold KkwSpec.vmsgs, vms. rewrite vhid_eq by auto. fold u q. rewrite key_eq.
  destruct (pf_ok P s pub pt Hwf Hpt Hpub t Hin) as [_ (_ & _ & _ & _ & Q5 & _ & Q7)]. fold q aB in Q5, Q7.
  destruct (Nat.eqb_spec j u) as [->|Hne].
  - rewrite vopen_eq by auto. cbn [kopen_of ko_msgs]. fold q. unfold omsgs. rewrite nth_map_seq by auto. fold aB.
    match goal with |- _ = pack _ ?f => destruct (pack_spec aB f) as (P1 & P2 & P3) end.
    apply bits_ext; auto; [congruence|]. intros i Hi. rewrite Q5 in Hi. rewrite P3.
    replace (i <? 8 * aB) with true by lia.
    assert (Hml : forall k, tbit (vml P s t) u k = bit (q_msgs q) k).
    { intros k. unfold vml, tbit. fold u.
      rewrite nth_list_set by (rewrite (proj1 (zero_msgs_rows P)); auto). rewrite Nat.eqb_refl. reflexivity. }
    destruct (Nat.ltb_spec i (stateSizeBits P * numRounds P)) as [Hlt|Hge]; [|symmetry; apply Hml].
    unfold osh. cbn [isu given_msgs]. rewrite Nat.eqb_refl, Hml. f_equal.
    apply Nat.div_mod. pose proof (n_pos P HP3). lia.
  - apply (message_bytes_eq E P sp HP3 CF); auto.
    + intros i Hi. reflexivity.
    + apply vpt_veq.
    + apply votapes_eq.
    + apply hidden_eq.
    + intros k Hk. unfold vml, tbit. rewrite nth_list_set by (rewrite (proj1 (zero_msgs_rows P)); auto). fold u.
      replace (j =? u) with false by lia. unfold zero_msgs. rewrite nth_repeat_lt by auto. apply bit_zeros.
Qed.

Lemma voutput_eq : voutput E sp L pb C Lp z t =
  oout E P (votl E P s t) (Some u) (vml P s t) (bit (q_input q)) (bit pt).
Proof.
  unfold voutput. rewrite key_eq. apply (output_eq E P sp HP3 CF).
  - intros i Hi. reflexivity.
  - apply vpt_veq.
  - apply votapes_eq.
  - apply hidden_eq.
Qed.

Lemma vCv_eq : KkwSpec.vCv E sp L pb C Lp z t = vcv E P s pt t.
Proof.
  unfold KkwSpec.vCv, vcv. rewrite key_eq. fold q.
  destruct (pf_ok P s pub pt Hwf Hpt Hpub t Hin) as [_ (_ & _ & _ & Q4 & _)]. fold q sB in Q4.
  apply (commit_view_eq E P sp HP3 CF).
  - symmetry. apply firstn_all2. fold sB. lia.
  - unfold vms, omsgs. rewrite map_length, seq_length. reflexivity.
  - intros j Hj. split; [apply vmsgs_eq; auto|].
    destruct (omsgs_rows E P (votl E P s t) (Some (vparty s t)) (vml P s t) (bit (q_input (pf s t))) (bit pt)) as [_ M2].
    apply M2; auto.
Qed.
End T.

Lemma vmerkle_eq : exists tr, vmerkle E P s pt = Some tr /\ shape T DT dg tr /\
  vroot E sp L pb C Lp z = nd tr 0.
Proof.
  destruct (others_ok P s pub pt HP3 Hwf Hpt Hpub) as [O1 O2]. fold T C in O1, O2.
  destruct (remerkle_eq E P sp HP3 CF HE T HT (g_salt s) salt32
    (fun t => KkwSpec.vCv E sp L pb C Lp z t) (others P C) (g_cvInfo s) (P3Verify.vCv E P s pt)) as (tr & H1 & H2 & H3); auto.
  - lia.
  - apply Hr.
  - unfold P3Verify.vCv. rewrite map_length, seq_length. reflexivity.
  - intros l Hl Hm. unfold P3Verify.vCv. rewrite nth_map_seq by auto. fold C.
    apply others_In in Hm. replace (contains C l) with false; [reflexivity|]. symmetry. apply contains_false. apply Hm.
  - intros l Hl Hm. unfold P3Verify.vCv. rewrite nth_map_seq by auto. fold C.
    assert (Hin : In l C).
    { destruct (in_dec Nat.eq_dec l C) as [|Hn]; auto. exfalso. apply Hm. apply others_In. auto. }
    replace (contains C l) with true by (symmetry; apply contains_In; auto).
    rewrite vCv_eq by auto. split; [reflexivity|]. unfold vcv, cv_of. apply hash_length; auto.
  - exists tr. split; [|split; [auto|]].
    + unfold vmerkle. fold C. fold T dg.
      match type of H1 with ?a = _ => match goal with |- val _ ?b = _ => change b with a end end.
      rewrite H1. reflexivity.
    + unfold vroot. rewrite <- (cf_T P sp CF). fold T. rewrite (not_in_eq P sp CF). exact H3.
Qed.

Lemma kcheck_eq : kcheck E sp L Ki Li Cb pb msg C Lp z = vresult E P s pub pt msg.
Proof.
  unfold kcheck, vresult. destruct vmerkle_eq as (tr & -> & Hs & ->). f_equal.
  - apply eq_true_iff_eq. unfold vsim. rewrite !forallb_forall. fold C. split; intros H t Hin.
    + destruct (contains C t) eqn:Ec; [|reflexivity]. apply contains_In in Ec. cbn [negb orb].
      specialize (H t Ec). rewrite voutput_eq in H by auto. exact H.
    + specialize (H t). rewrite in_seq in H. specialize (H ltac:(pose proof (C_T t Hin); unfold T in *; lia)).
      replace (contains C t) with true in H by (symmetry; apply contains_In; auto). cbn [negb orb] in H.
      rewrite voutput_eq by auto. exact H.
  - f_equal. cbn [z ksig_of ks_salt]. apply (challenge_hash_eq E P sp CF).
    + rewrite map_length, seq_length. reflexivity.
    + intros t Ht. rewrite nth_map_seq by auto. split.
      * unfold vch. apply (commit_row_eq E P sp HP3 CF).
        -- destruct (vrow_drow E P s pub pt HE Hwf Hpt Hpub t Ht) as [D _]. exact D.
        -- intros j Hj. split; [apply vC_eq; auto|]. destruct (vrow_drow E P s pub pt HE Hwf Hpt Hpub t Ht) as [_ D]. apply D; auto.
      * unfold vch, ch_of. apply hash_length; auto.
    + unfold nd. apply (sh_nl _ _ _ _ Hs). unfold nN. pose proof (pow_pos DT). lia.
    + apply salt32.
Qed.
End V.
End Z.

Lemma picnic3_verify_is E p P sp fuel pk msg sg :
  get_param_set p = Some P -> pk_params pk = p -> is_picnic3 p = true -> table2 p = Some sp ->
  env_bytes_ok E -> constants_ok E P -> inverses_ok E P -> pk_wf pk -> bytes_ok sg ->
  picnic_verify E fuel pk msg sg =
  match kkw_verify E sp (spec_lowmc E P sp) (spec_K0inv E P) (spec_Linv E P) fuel
          (block P (pk_ciphertext pk)) (block P (pk_plaintext pk)) msg sg with
  | None => NoFuel
  | Some b => Ok b
  end.
Proof.
  intros HP Hp H3 Htab HE HC HI Hwf Hsg.
  pose proof (get_param_set_wfP3 _ _ HP H3) as HP3.
  destruct (table2_conforms p P HP) as (sp' & Htab' & CF).
  assert (sp' = sp) as -> by congruence. rewrite (spec_lowmc_eq E P sp CF).
  pose proof (cf_salt P sp CF) as Hsl.
  unfold kkw_verify. rewrite <- (cf_H P sp CF).
  assert (Hread : forall h salt b, length h = digestSizeBytes P -> length salt = 32 -> sg = h ++ salt ++ b ->
    read (digestSizeBytes P) sg = Some (h, salt ++ b) /\ read 32 (salt ++ b) = Some (salt, b)).
  { intros h salt b Hh Hs ->. split; apply read_app; auto. }
  assert (Hcut : digestSizeBytes P + saltSizeBytes P <= length sg -> exists h salt b,
    length h = digestSizeBytes P /\ length salt = 32 /\ sg = h ++ salt ++ b /\ firstn (digestSizeBytes P) sg = h).
  { intros Hl. destruct (cut_app sg (digestSizeBytes P)) as (h & b1 & -> & L1); [lia|]. rewrite app_length in Hl.
    destruct (cut_app b1 32) as (salt & b & -> & L2); [lia|].
    exists h, salt, b. repeat (split; [solve [auto]|]).
    rewrite <- L1, firstn_app, Nat.sub_diag, firstn_all, firstn_O, app_nil_r. reflexivity. }
  assert (Hv : forall r, deserializeSignature2 E P fuel sg = r -> (forall s, r <> Ok (Some s)) ->
     picnic_verify E fuel pk msg sg = match r with Ok _ => Ok false | UB => UB | Abort => Abort | NoFuel => NoFuel end).
  { intros r Hr Hs. unfold picnic_verify. rewrite Hp, HP, H3. cbn [negb]. rewrite Hr.
    destruct r as [[s|]| | |]; try reflexivity. exfalso. eapply Hs. reflexivity. }
  destruct (deser_cases P HP3 E HE fuel sg Hsg) as [[Hl Hd]|[(Hl & Hx & Hd)|(C & Lp & Hl & Hx & Hw & Hd)]].
  - rewrite (Hv _ Hd) by discriminate.
    destruct (read (digestSizeBytes P) sg) as [[h b]|] eqn:R1; [|reflexivity].
    apply read_inv in R1. destruct R1 as [-> L1].
    destruct (read 32 b) as [[salt b']|] eqn:R2; [|reflexivity].
    apply read_inv in R2. destruct R2 as [-> L2]. rewrite !app_length in Hl. exfalso. lia.
  - rewrite (Hv _ Hd) by discriminate. destruct (Hcut Hl) as (h & salt & b & Lh & Ls & Hs & Hf). rewrite Hf in Hx.
    destruct (Hread h salt b Lh Ls Hs) as [-> ->]. rewrite (challenge_eq E P sp HP3 CF HE) in Hx by auto.
    destruct (challenge E sp fuel h) as [r|]; [discriminate|reflexivity].
  - destruct (Hcut Hl) as (h & salt & b & Lh & Ls & Hs & Hf). rewrite Hf in Hx.
    pose proof Hx as Hx'. rewrite (challenge_eq E P sp HP3 CF HE) in Hx' by auto.
    destruct (challenge E sp fuel h) as [[C' L']|] eqn:Hch; [|discriminate]. injection Hx' as -> ->.
    destruct (Hread h salt b Lh Ls Hs) as [-> ->]. rewrite Hch.
    destruct Hd as [[Hne Hd]|(s & Hr & He & HsC & HsP & Hh & Hd)].
    + rewrite (Hv _ Hd) by discriminate. destruct (kparse sp C Lp h salt b) as [z|] eqn:Hk; [|reflexivity].
      exfalso. apply Hne. rewrite Hs. eapply kparse_len; eauto. lia.
    + destruct (kparse_enc E P sp HP3 CF s Hr) as (b' & Hb' & Hk). rewrite He in Hs. rewrite Hb' in Hs.
      pose proof Hr as (S1 & S2 & _).
      assert (g_challengeHash s = h) as Eh by (rewrite Hh; exact Hf).
      rewrite Eh in Hs. apply app_inv_head in Hs.
      assert (g_salt s = salt /\ b' = b) as [Es Eb].
      { apply ApiFacts.app_inj_len; [exact Hs|]. rewrite S1. lia. }
      subst b'. rewrite Eh, Es, HsC, HsP in Hk. rewrite Hk.
      destruct (all_pads P s) eqn:Ha.
      * rewrite He. rewrite (verify3_value E P p HP H3 HE HC HI fuel pk msg s Hp Hwf Hr Ha).
        -- destruct Hwf as [Wpt Wpub]. f_equal. rewrite <- HsC, <- HsP. symmetry.
           apply (kcheck_eq E P sp HP3 CF HE); auto.
           ++ apply (block_len P p HP H3 _ Wpt).
           ++ apply (block_len P p HP H3 _ Wpub).
        -- rewrite HsC, HsP, Eh. exact Hx.
      * rewrite (Hv _ Hd) by discriminate. reflexivity.
Qed.
