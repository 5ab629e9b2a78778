(** Reading a ZKB++ signature from bytes on memory. *)

From Coq Require Import List NArith Arith Bool Lia ZifyBool ZifyNat ZifyN.
From Verif Require Import Base Params Env Spec LowMC Picnic1 MiniC CodeLowMC CodeSpec HashSpec CodeZkbSpec CodeVerAll CodeSignAll CodeDeserialize CodeDeserializeSpec
  Api ApiSpec BaseFacts ParamFacts MiniCFacts CodeRules CodeLowMCProofs CodeHeap CodeZkbMpc CodeP3Proofs CodeP3Lin CodeP3Sim ZkbMpc Zkb ZkbCodec ZkbRound ZkbChal CodeH3Proofs ApiFacts CodeSignAllProofs.
From Verif Require CodeHashUsesSpec CodeVerRoundThm CodeSignThm ZkbApi ZkbRound CodeSerializeProofs.
Import ListNotations.
Local Open Scope c_scope.

Lemma pts_skip n m q l o : pts n m q l -> o <= length l -> pts n m (fst q, snd q + o) (skipn o l).
Proof.
  intros A Ho. rewrite <- (firstn_all2 (skipn o l) (n := length l - o)) by (rewrite skipn_length; lia). apply pts_sub; [exact A|lia].
Qed.

Section S.
Variables (U : nat -> nat -> bytes) (E : env) (P : paramset) (HP1 : wfP1 P) (HD : 0 < digestSizeBytes P) (HN : pos_b P = true).
Variables (st : state) (g : nat -> ptr) (ps : ptr) (sg : bytes).
Hypothesis HM : deserialize_call P E st g ps sg.
Let T := numMPCRounds P.
Let pb := parts P.
Let n0 := nx st.
Let m0 := mm st.
Let sl : layout := mkLayout (sig_count P) g (sig_size P).
Notation hp := (heap n0 m0 sl n0).
Notation cb := (firstn (numBytes (2 * T)) sg).
Notation fresh k := (allocateProof E P site_vproof k).

Record at_in (y : state) (off : nat) (c : nat -> bytes) : Prop := {
  ai_pv : pv y = pv st; ai_nx : nx y = n0; ai_off : iv y 4 = off; ai_len : iv y 0 = length sg; ai_hp : hp (mm y) c
}.

Lemma pb_bounds : 5 <= pb <= 6 /\ (is_UR (transf P) = true -> pb = 6).
Proof. unfold pb, parts. destruct (is_UR (transf P)); split; try lia; intros X; try discriminate X; reflexivity. Qed.
Lemma pos1 : 0 < saltSizeBytes P /\ 0 < seedSizeBytes P /\ 0 < andSizeBytes P /\ 0 < stateSizeBytes P /\ (is_UR (transf P) = true -> 0 < UnruhGWithoutInputBytes P).
Proof. revert HN. unfold pos_b. rewrite !andb_true_iff, !Nat.leb_le. intros [[[[A B] C] D] F]. repeat (split; [assumption|]). intros Hu. rewrite Hu in F. apply Nat.leb_le in F. lia. Qed.
Lemma size_part k e : e < pb -> sig_size P (part_at P k e) = part_size P e.
Proof.
  intros He. unfold sig_size, part_at. fold pb. cbn [Nat.add Nat.eqb]. replace (S (S (pb * k + e)) - 2) with (e + k * pb) by lia. rewrite Nat.mod_add, Nat.mod_small by lia. reflexivity.
Qed.
Lemma part_lt k e : k < T -> e < pb -> part_at P k e < sig_count P.
Proof. intros Hk He. unfold part_at, sig_count. fold pb T. nia. Qed.
Lemma ro_sig : ro n0 m0 sl ps sg.
Proof.
  destruct (de_sig _ _ _ _ _ _ HM) as [_ (A & _ & B)]. split; [exact A|]. intros k Hk. apply B. unfold sig_writes. apply in_map_iff. exists k. split; [reflexivity|]. apply in_seq. cbn [sl cnt] in Hk. lia.
Qed.
Lemma sg_ok : bytes_ok sg.
Proof. apply (de_sig _ _ _ _ _ _ HM). Qed.

Lemma h_take dst n j y off c (Q : state -> Prop) : at_in y off c -> peval (iv y) (pv y) dst = Some (g j) -> j < sig_count P -> 0 < n -> n <= sig_size P j -> off + n <= length sg ->
  (forall z, at_in z (off + n) (cset c j (blit_list (c j) 0 (firstn n (skipn off sg)))) -> (forall x, x <> 4 -> iv z x = iv y x) -> Q z) -> runs U (c_take dst n) y Q.
Proof.
  intros [A1 A2 A3 A4 A5] Ed Hj Hn Hs Ho HQ. unfold c_take. apply runs_seq. destruct ro_sig as [R1 R2].
  set (p := (fst ps, snd ps + off)).
  assert (Ep : peval (iv y) (pv y) (PAdd (P0 0) (IV 4)) = Some p).
  { cbn [P0 peval ieval]. rewrite A1, (proj1 (de_sig _ _ _ _ _ _ HM)), A3. cbn [nth_error]. rewrite (surjective_pairing ps) at 1. reflexivity. }
  assert (R : ro n0 m0 sl p (skipn off sg)).
  { split; [apply pts_skip; [exact R1|lia]|]. intros k Hk. specialize (R2 k Hk). unfold disj, p in *. cbn [fst snd]. rewrite skipn_length. lia. }
  apply (h_memcpy_part n0 m0 U sl dst _ _ y c j p (skipn off sg)); cbn [ieval sl reg cnt sz]; auto.
  - intros Eq. destruct R as [_ D]. specialize (D j Hj). rewrite skipn_length in D. cbn [sl reg sz] in D. rewrite <- Eq in D. unfold disj in D. lia.
  - left. exact R.
  - apply Forall_skipn, sg_ok.
  - rewrite skipn_length. lia.
  - rewrite A2. exact A5.
  - intros m' H'. apply runs_iset. apply HQ.
    + split; unfold set_mm, set_iv; cbn [iv pv mm nx upd Nat.eqb ieval]; auto. rewrite A2 in H'. exact H'.
    + intros x Hx. unfold set_mm, set_iv. cbn [iv]. apply upd_neq, Hx.
Qed.

(** The checks. *)
Lemma h_valid l : forall n i y q b, peval (iv y) (pv y) (P0 0) = Some q -> pts (nx y) (mm y) q l -> isChallengeValid_from n i l = Ok b -> 2 * (i + n) <= 8 * length l ->
  runs U (valid_body (seq i n)) y (fun z => iv z 5 = (if b then 1 else 0) /\ pv z = pv y /\ mm z = mm y /\ nx z = nx y).
Proof.
  induction n as [|n IH]; intros i y q b Eq Hq Hv Hl; cbn [seq valid_body].
  - injection Hv as <-. apply runs_iset. unfold set_iv. cbn [iv pv mm nx upd Nat.eqb ieval]. auto.
  - cbn [isChallengeValid_from] in Hv. inv_bind Hv. rename x into ch. apply runs_seq.
    assert (HX : ro (nx y) (mm y) (mkLayout 0 (fun _ => (0, 0)) (fun _ => 0)) q l) by (split; [exact Hq|intros k Hk; cbn [cnt] in Hk; lia]).
    assert (HH : heap (nx y) (mm y) (mkLayout 0 (fun _ => (0, 0)) (fun _ => 0)) (nx y) (mm y) (fun _ => [])).
    { split; cbn [cnt]; try (intros; lia); [split; cbn [cnt]; intros; lia|intros b' _; auto]. }
    apply (h_getChallenge (nx y) (mm y) U _ _ _ _ y (fun _ => []) q l ch _ Eq (or_introl HX) HH); cbn [ieval]; [exact Hx|lia|].
    intros u. eapply runs_if; [cbn [ceval ieval iv]; rewrite upd_eq; reflexivity|]. destruct (2 <? ch).
    + injection Hv as <-. apply runs_iset. unfold set_iv. cbn [iv pv mm nx upd Nat.eqb ieval]. auto.
    + eapply runs_mono; [apply (IH (S i) _ q b); auto; lia|]. intros z Hz. exact Hz.
Qed.

Lemma h_padding l : forall n i y q b, peval (iv y) (pv y) (P0 0) = Some q -> pts (nx y) (mm y) q l -> arePaddingBitsZero_from n i l = Ok b ->
  runs U (padding_body (seq i n)) y (fun z => iv z 5 = (if b then 1 else 0) /\ pv z = pv y /\ mm z = mm y /\ nx z = nx y).
Proof.
  induction n as [|n IH]; intros i y q b Eq Hq Hv; cbn [seq padding_body].
  - injection Hv as <-. apply runs_iset. unfold set_iv. cbn [iv pv mm nx upd Nat.eqb ieval]. auto.
  - cbn [arePaddingBitsZero_from] in Hv. inv_bind Hv. apply getBit_inv in Hx. destruct Hx as [Hl ->]. apply runs_seq.
    apply (runs_getBit U _ _ _ y q l); cbn [ieval]; auto. apply runs_ifd. unfold set_dv. cbn [deval dv iv]. rewrite upd_eq. destruct (bit l i); cbn [b2n N.b2n N.eqb].
    + injection Hv as <-. apply runs_iset. unfold set_iv. cbn [iv pv mm nx upd Nat.eqb ieval]. auto.
    + eapply runs_mono; [apply (IH (S i) _ q b); auto|]. intros z Hz. exact Hz.
Qed.

Lemma h_share_size y q size : peval (iv y) (pv y) (P0 0) = Some q -> pts (nx y) (mm y) q sg -> computeInputShareSize P sg = Ok size -> numBytes (2 * T) <= length sg ->
  runs U (share_size_body P) y (fun z => iv z 3 = size /\ pv z = pv y /\ mm z = mm y /\ nx z = nx y).
Proof.
  intros Eq Hq Hs Hl. unfold share_size_body, computeInputShareSize in *. fold T in Hs |- *. revert Hs. set (body := fun (i size : nat) => _). intros Hs. pose proof (numBytes_spec (2 * T)) as Hnb.
  apply runs_seq, runs_iset. unfold set_iv. cbn [ieval].
  apply (runs_for U (fun k z => for_loop k 0 body 0 = Ok (iv z 3) /\ pv z = pv y /\ mm z = mm y /\ nx z = nx y)).
  - cbn [for_loop iv upd Nat.eqb pv mm nx]. auto.
  - cbn [ieval]. rewrite Nat.sub_0_r, Nat.add_0_r, Nat.div_1_r. intros k z Hk (I1 & I2 & I3 & I4). cbn [Nat.add]. rewrite Nat.mul_1_r. apply runs_seq.
    assert (HX : ro (nx y) (mm y) (mkLayout 0 (fun _ => (0, 0)) (fun _ => 0)) q sg) by (split; [exact Hq|intros k' Hk'; cbn [cnt] in Hk'; lia]).
    assert (HH : heap (nx y) (mm y) (mkLayout 0 (fun _ => (0, 0)) (fun _ => 0)) (nx y) (mm y) (fun _ => [])).
    { split; cbn [cnt]; try (intros; lia); [split; cbn [cnt]; intros; lia|intros b' _; auto]. }
    assert (G : getChallenge sg k = Ok (chalv sg k)) by (apply getChallenge_ok; lia).
    apply (h_getChallenge (nx y) (mm y) U (mkLayout 0 (fun _ => (0, 0)) (fun _ => 0)) _ _ _ _ (fun _ => []) q sg (chalv sg k)); unfold set_iv; cbn [iv pv mm nx dv ct ieval].
    + cbn [P0 peval ieval] in *. rewrite I2. exact Eq.
    + left. exact HX.
    + rewrite I3, I4. exact HH.
    + rewrite upd_eq. exact G.
    + rewrite upd_eq. lia.
    + intros u.
      assert (St : for_loop (S k) 0 body 0 = Ok (if (chalv sg k =? 1) || (chalv sg k =? 2) then iv z 3 + stateSizeBytes P else iv z 3)).
      { rewrite <- Nat.add_1_r, for_loop_app, I1. cbn [bind for_loop]. unfold body at 1. rewrite Nat.add_0_l, G. reflexivity. }
      rewrite St. eapply runs_if; [cbn [ceval ieval iv]; rewrite upd_eq; reflexivity|]. destruct (chalv sg k =? 1); cbn [orb].
      * apply runs_iset. unfold set_iv. cbn [iv pv mm nx upd Nat.eqb ieval]. auto.
      * eapply runs_if; [cbn [ceval ieval iv]; rewrite upd_eq; reflexivity|]. destruct (chalv sg k =? 2).
        -- apply runs_iset. unfold set_iv. cbn [iv pv mm nx upd Nat.eqb ieval]. auto.
        -- apply runs_skip. cbn [iv pv mm nx upd Nat.eqb]. auto.
  - cbn [ieval]. rewrite Nat.sub_0_r, Nat.add_0_r, Nat.div_1_r. intros z (I1 & I2 & I3 & I4). cbn [pv mm nx] in *. split; [congruence|]. auto.
Qed.

(** A round. *)
Lemma h_take_part k e n y off c (Q : state -> Prop) : k < T -> e < pb -> at_in y off c -> 0 < n -> n <= part_size P e -> off + n <= length sg ->
  (forall z, at_in z (off + n) (cset c (part_at P k e) (blit_list (c (part_at P k e)) 0 (firstn n (skipn off sg)))) -> (forall x, x <> 4 -> iv z x = iv y x) -> Q z) ->
  runs U (c_take (part_of P k e) n) y Q.
Proof.
  intros Hk He A Hn Hs Ho HQ. apply (h_take _ n (part_at P k e) y off c); auto.
  - unfold part_of. cbn [peval ieval]. rewrite (ai_pv _ _ _ A). apply (de_proofs _ _ _ _ _ _ HM k e Hk He).
  - apply part_lt; assumption.
  - rewrite size_part by exact He. exact Hs.
Qed.

Lemma h_take_share k y off c sh s b : k < T -> at_in y off c -> slice sg off (stateSizeBytes P) = Ok sh -> blit (c (part_at P k 2)) 0 sh = Ok s -> arePaddingBitsZero s (stateSizeBits P) = Ok b ->
  runs U (c_take_share P k) y (fun z => at_in z (off + stateSizeBytes P) (cset c (part_at P k 2) s) /\ iv z 9 = (if b then 1 else 0) /\ iv z 5 = iv y 5).
Proof.
  intros Hk A Hs Hb Hp. apply slice_inv in Hs. destruct Hs as [Hl ->]. apply blit_inv in Hb. destruct Hb as [_ ->]. pose proof pb_bounds as [Pb _]. destruct pos1 as (_ & _ & _ & PS & _).
  unfold c_take_share. apply runs_seq. apply (h_take_part k 2 _ y off c); auto; [lia|]. intros z Az Iz. revert Az Hp. set (s := blit_list _ _ _). intros Az Hp.
  assert (Ep : peval (iv z) (pv z) (part_of P k 2) = Some (g (part_at P k 2))).
  { unfold part_of. cbn [peval ieval]. rewrite (ai_pv _ _ _ Az). apply (de_proofs _ _ _ _ _ _ HM k 2 Hk). fold pb. lia. }
  eapply runs_call; [cbn [pargevals pargeval pevals]; rewrite Ep; reflexivity|]. cbn [map]. unfold arePaddingBitsZero in Hp.
  eapply runs_mono; [apply (h_padding s _ _ _ (g (part_at P k 2)) b); [reflexivity| |exact Hp]|].
  - cbn [nx mm]. rewrite (ai_nx _ _ _ Az). pose proof (heap_pts _ _ _ _ _ _ (ai_hp _ _ _ Az) (part_at P k 2) (part_lt k 2 Hk ltac:(lia))) as X. rewrite cset_eq in X. exact X.
  - intros w (W1 & W2 & W3 & W4). cbn [pv mm nx] in *. cbn [copy_back fst snd]. destruct Az as [Z1 Z2 Z3 Z4 Z5]. split; [split; cbn [iv pv mm nx upd Nat.eqb]; auto; [congruence|rewrite W3; exact Z5]|].
    split; [cbn [iv]; rewrite upd_eq; exact W1|]. cbn [iv]. rewrite upd_neq by discriminate. apply Iz. discriminate.
Qed.

Lemma h_take_round k y off c r : k < T -> at_in y off c -> c 1 = cb -> (forall e, e < pb -> c (part_at P k e) = proof_part (fresh k) e) -> numBytes (2 * T) <= length sg ->
  deserialize_round E P cb sg off k = Ok r ->
  runs U (c_take_round P k) y (fun z => iv z 5 = iv y 5 /\
    match r with
    | Some (pr, off') => iv z 9 = 1 /\ exists c', at_in z off' c' /\ (forall e, e < pb -> c' (part_at P k e) = proof_part pr e) /\
        (forall j, (forall e, e < pb -> j <> part_at P k e) -> c' j = c j)
    | None => iv z 9 = 0 /\ exists off' c', at_in z off' c'
    end).
Proof.
  intros Hk A C1 Cf Hl Hr. unfold deserialize_round in Hr. inv_bind Hr. rename x into ch, Hx into Hc. pose proof pb_bounds as [Pb PU]. destruct pos1 as (_ & P1 & P2 & P3 & P4). pose proof (numBytes_spec (2 * T)) as Hnb.
  assert (Hch : 2 * k + 1 < 8 * length cb) by (rewrite firstn_length; lia).
  inv_bind Hr. apply slice_inv in Hx. destruct Hx as [L4 ->]. inv_bind Hr. apply blit_inv in Hx. destruct Hx as [_ ->].
  unfold c_take_round. apply runs_seq, runs_iset. unfold set_iv. cbn [ieval]. apply runs_seq.
  apply (h_getChallenge n0 m0 U sl _ _ _ _ c (g 1) cb ch); cbn [iv pv mm nx ieval].
  { cbn [P0 peval ieval]. rewrite (ai_pv _ _ _ A), (de_chal _ _ _ _ _ _ HM). reflexivity. }
  { right. exists 1. split; [cbn [sl cnt]; unfold sig_count; lia|]. split; [reflexivity|]. symmetry. exact C1. }
  { rewrite (ai_nx _ _ _ A). apply (ai_hp _ _ _ A). }
  { exact Hc. }
  { exact Hch. }
  intros u. set (y0 := mkState _ _ _ _ _ _). assert (A0 : at_in y0 off c) by (destruct A; split; auto).
  assert (I0 : iv y0 1 = ch /\ iv y0 9 = 1 /\ iv y0 5 = iv y 5) by (repeat split; reflexivity). clearbody y0. clear A.
  apply runs_seq. apply (h_take_part k 4 _ y0 off c); auto; [lia|]. intros y1 A1 J1. assert (I1 : iv y1 1 = ch /\ iv y1 9 = 1 /\ iv y1 5 = iv y 5) by (rewrite !J1 by discriminate; exact I0). clear J1 I0 A0 y0.
  rewrite Cf in A1 by lia. revert A1 Hr. cbn [proof_part]. set (v3c := blit_list (p_view3Commitment (fresh k)) 0 _). set (o1 := off + digestSizeBytes P). intros A1 Hr.
  inv_bind Hr. destruct x as [v3g o2]. apply runs_seq.
  apply (runs_mono U _ _ (fun z => exists c2, at_in z o2 c2 /\ (5 < pb -> c2 (part_at P k 5) = v3g) /\ c2 (part_at P k 4) = v3c /\ (forall j, j <> part_at P k 4 -> (5 < pb -> j <> part_at P k 5) -> c2 j = c j) /\ (iv z 1 = ch /\ iv z 9 = 1 /\ iv z 5 = iv y 5))).
  { destruct (is_UR (transf P)) eqn:Hu.
    - specialize (PU eq_refl). specialize (P4 eq_refl). inv_bind Hx. apply slice_inv in Hx0. destruct Hx0 as [L5 ->]. inv_bind Hx. apply blit_inv in Hx0. destruct Hx0 as [_ ->]. injection Hx as <- <-.
      pose proof (w1_Gw P HP1 Hu) as W1. pose proof (w1_Gwo P HP1 Hu) as W2.
      eapply runs_if; [cbn [ceval ieval]; rewrite (proj1 I1); reflexivity|].
      revert L5. set (len := if ch =? 0 then _ else _). intros L5. assert (Hle : 0 < len /\ len <= UnruhGWithInputBytes P) by (unfold len; destruct (ch =? 0); lia).
      replace (if ch =? 0 then c_take (part_of P k 5) (UnruhGWithInputBytes P) else c_take (part_of P k 5) (UnruhGWithoutInputBytes P)) with (c_take (part_of P k 5) len) by (unfold len; destruct (ch =? 0); reflexivity).
      apply (h_take_part k 5 len y1 o1 _ _ Hk ltac:(lia) A1); [lia|cbn [part_size]; lia|exact L5|]. intros z Az Iz. eexists. split; [exact Az|].
      assert (N45 : part_at P k 4 <> part_at P k 5) by (unfold part_at; lia).
      split; [intros _; rewrite cset_eq, cset_neq by (intros X; apply N45; symmetry; exact X); rewrite Cf by lia; reflexivity|].
      split; [rewrite cset_neq, cset_eq by exact N45; reflexivity|]. split; [intros j J4 J5; rewrite !cset_neq by (auto; apply J5; lia); reflexivity|]. rewrite !Iz by discriminate. exact I1.
    - injection Hx as <- <-. apply runs_skip. eexists. split; [exact A1|]. split; [intros X; unfold pb, parts in X; rewrite Hu in X; lia|]. split; [apply cset_eq|]. split; [intros j J4 _; apply cset_neq, J4|exact I1]. }
  clear Hx A1 I1 y1. intros y2 (c2 & A2 & G5 & G4 & G & I2).
  inv_bind Hr. apply slice_inv in Hx. destruct Hx as [L3 ->]. inv_bind Hr. apply blit_inv in Hx. destruct Hx as [_ ->].
  inv_bind Hr. apply slice_inv in Hx. destruct Hx as [L0 ->]. inv_bind Hr. apply blit_inv in Hx. destruct Hx as [_ ->].
  inv_bind Hr. apply slice_inv in Hx. destruct Hx as [L1 ->]. inv_bind Hr. apply blit_inv in Hx. destruct Hx as [_ ->].
  apply runs_seq. apply (h_take_part k 3 _ y2 o2 c2); auto; [lia|]. intros y3 A3 J3. assert (I3 : iv y3 1 = ch /\ iv y3 9 = 1 /\ iv y3 5 = iv y 5) by (rewrite !J3 by discriminate; exact I2). clear J3.
  apply runs_seq. eapply (h_take_part k 0 _ y3); [exact Hk|lia|exact A3|exact P1|reflexivity|exact L0|]. intros y4 A4 J4. assert (I4 : iv y4 1 = ch /\ iv y4 9 = 1 /\ iv y4 5 = iv y 5) by (rewrite !J4 by discriminate; exact I3). clear J4.
  apply runs_seq. eapply (h_take_part k 1 _ y4); [exact Hk|lia|exact A4|exact P1|reflexivity|exact L1|]. intros y5 A5 J5. assert (I5 : iv y5 1 = ch /\ iv y5 9 = 1 /\ iv y5 5 = iv y 5) by (rewrite !J5 by discriminate; exact I4). clear J5.
  revert A5. set (c5 := cset _ (part_at P k 1) _). intros A5.
  assert (Ne : forall a b, a <> b -> part_at P k a <> part_at P k b) by (intros a b Hab; unfold part_at; lia).
  revert Hr. set (comm := blit_list (p_communicatedBits _) 0 _). set (s1 := blit_list (p_seed1 _) 0 _). set (s2 := blit_list (p_seed2 _) 0 _). intros Hr.
  assert (V : forall e, e < pb -> c5 (part_at P k e) = proof_part (mkProof s1 s2 (p_inputShare (fresh k)) comm v3c v3g) e).
  { intros e He. unfold c5. destruct e as [|[|[|[|[|[|e]]]]]]; [| | | | | |exfalso; lia]; cbn [proof_part p_seed1 p_seed2 p_inputShare p_communicatedBits p_view3Commitment p_view3UnruhG].
    - rewrite cset_neq, cset_eq, cset_neq by (apply Ne; discriminate). rewrite G, Cf by (first [lia|solve [apply Ne; discriminate]|solve [intros _; apply Ne; discriminate]]). reflexivity.
    - rewrite cset_eq, !cset_neq by (apply Ne; discriminate). rewrite G, Cf by (first [lia|solve [apply Ne; discriminate]|solve [intros _; apply Ne; discriminate]]). reflexivity.
    - rewrite !cset_neq by (apply Ne; discriminate). rewrite G, Cf by (first [lia|solve [apply Ne; discriminate]|solve [intros _; apply Ne; discriminate]]). reflexivity.
    - rewrite !cset_neq, cset_eq by (apply Ne; discriminate). rewrite G, Cf by (first [lia|solve [apply Ne; discriminate]|solve [intros _; apply Ne; discriminate]]). reflexivity.
    - rewrite !cset_neq by (apply Ne; discriminate). exact G4.
    - rewrite !cset_neq by (apply Ne; discriminate). apply G5. lia. }
  assert (V' : forall j, (forall e, e < pb -> j <> part_at P k e) -> c5 j = c j).
  { intros j Hj. unfold c5. rewrite !cset_neq by (apply Hj; lia). apply G; [apply Hj; lia|]. intros H5. apply Hj, H5. }
  assert (Fin : forall s b r', slice sg (o2 + andSizeBytes P + seedSizeBytes P + seedSizeBytes P) (stateSizeBytes P) = Ok s -> blit (p_inputShare (fresh k)) 0 s = Ok r' -> arePaddingBitsZero r' (stateSizeBits P) = Ok b ->
    r = (if b then Some (mkProof s1 s2 r' comm v3c v3g, o2 + andSizeBytes P + seedSizeBytes P + seedSizeBytes P + stateSizeBytes P) else None) ->
    runs U (c_take_share P k) y5 (fun z => iv z 5 = iv y 5 /\
      match r with
      | Some (pr, off') => iv z 9 = 1 /\ exists c', at_in z off' c' /\ (forall e, e < pb -> c' (part_at P k e) = proof_part pr e) /\ (forall j, (forall e, e < pb -> j <> part_at P k e) -> c' j = c j)
      | None => iv z 9 = 0 /\ exists off' c', at_in z off' c'
      end)).
  { intros s b r' S1 S2 S3 ->. eapply runs_mono; [apply (h_take_share k y5 _ c5 s r' b Hk A5 S1); [|exact S3]|].
    - rewrite V by lia. exact S2.
    - intros z (Z1 & Z2 & Z3). destruct I5 as (_ & _ & I5). split; [congruence|]. destruct b; [|split; [exact Z2|eauto]]. split; [exact Z2|]. eexists. split; [exact Z1|]. split.
      + intros e He. destruct (Nat.eq_dec e 2) as [->|N2]; [apply cset_eq|]. rewrite cset_neq by (apply Ne, N2). rewrite V by exact He. destruct e as [|[|[|e]]]; try reflexivity. contradiction.
      + intros j Hj. rewrite cset_neq by (apply Hj; lia). apply V', Hj. }
  eapply runs_if; [cbn [ceval ieval]; rewrite (proj1 I5); reflexivity|]. destruct (ch =? 1); cbn [orb] in Hr.
  { inv_bind Hr. rename x into s, Hx into S1. inv_bind Hr. rename x into r', Hx into S2. inv_bind Hr. rename x into b, Hx into S3. apply (Fin s b r'); auto. destruct b; injection Hr as <-; reflexivity. }
  eapply runs_if; [cbn [ceval ieval]; rewrite (proj1 I5); reflexivity|]. destruct (ch =? 2).
  { inv_bind Hr. rename x into s, Hx into S1. inv_bind Hr. rename x into r', Hx into S2. inv_bind Hr. rename x into b, Hx into S3. apply (Fin s b r'); auto. destruct b; injection Hr as <-; reflexivity. }
  injection Hr as <-. apply runs_skip. destruct I5 as (_ & I9 & I5). split; [exact I5|]. split; [exact I9|]. exists c5. auto.
Qed.

(** All rounds. *)
Lemma h_take_rounds n : forall i y off c r, i + n = T -> at_in y off c -> c 1 = cb -> (forall k e, i <= k < T -> e < pb -> c (part_at P k e) = proof_part (fresh k) e) -> numBytes (2 * T) <= length sg -> iv y 5 = 0 ->
  deserialize_rounds E P n i cb sg off = Ok r ->
  runs U (c_take_rounds P (seq i n)) y (fun z => exists off' c', at_in z off' c' /\
    match r with
    | Some l => iv z 5 = 1 /\ length l = n /\ c' 0 = c 0 /\ c' 1 = cb /\ (forall k e, k < i -> e < pb -> c' (part_at P k e) = c (part_at P k e)) /\
        forall k, k < n -> exists pr, nth_error l k = Some pr /\ forall e, e < pb -> c' (part_at P (i + k) e) = proof_part pr e
    | None => iv z 5 = 0
    end).
Proof.
  pose proof pb_bounds as [Pb _].
  induction n as [|n IH]; intros i y off c r Hi A C1 Cf Hl I5 Hr; cbn [seq c_take_rounds].
  - injection Hr as <-. apply runs_iset. exists off, c. split; [destruct A; split; auto|]. unfold set_iv. cbn [iv upd Nat.eqb ieval]. split; [reflexivity|]. split; [reflexivity|]. split; [reflexivity|]. split; [exact C1|]. split; [reflexivity|]. intros k Hk. lia.
  - cbn [deserialize_rounds] in Hr. inv_bind Hr. rename x into x1. apply runs_seq. eapply runs_mono; [apply (h_take_round i y off c x1); auto; [lia|intros e He; apply Cf; [lia|exact He]]|].
    intros z [Z5 Hz]. destruct x1 as [[pr off1]|].
    + destruct Hz as (Z9 & c1 & Az & V & V'). eapply runs_if; [cbn [ceval ieval]; rewrite Z9; reflexivity|]. cbn [Nat.eqb]. inv_bind Hr. rename x into r1, Hx0 into Hr1.
      assert (Far : forall k e, k <> i -> e < pb -> c1 (part_at P k e) = c (part_at P k e)).
      { intros k e Hk He. apply V'. intros e' He'. unfold part_at. fold pb. nia. }
      assert (Far01 : forall j, j < 2 -> c1 j = c j) by (intros j Hj; apply V'; intros e' He'; unfold part_at; lia).
      eapply runs_mono; [apply (IH (S i) z off1 c1 r1); auto; [lia|rewrite Far01 by lia; exact C1| |congruence]|].
      * intros k e Hk He. rewrite Far by (auto; lia). apply Cf; [lia|exact He].
      * intros w (off' & c' & Aw & Hw). exists off', c'. split; [exact Aw|]. destruct r1 as [l|]; injection Hr as <-; [|exact Hw].
        destruct Hw as (W5 & Wl & W0 & W1 & Wb & Wn). split; [exact W5|]. split; [cbn [length]; lia|]. split; [rewrite W0; apply Far01; lia|]. split; [exact W1|]. split.
        -- intros k e Hk He. rewrite Wb by (auto; lia). apply Far; [lia|exact He].
        -- intros [|k] Hk.
           ++ exists pr. split; [reflexivity|]. intros e He. rewrite Nat.add_0_r, Wb by (auto; lia). apply V, He.
           ++ destruct (Wn k ltac:(lia)) as (pr' & N1 & N2). exists pr'. split; [exact N1|]. intros e He. replace (i + S k) with (S i + k) by lia. apply N2, He.
    + destruct Hz as (Z9 & off' & c' & Az). injection Hr as <-. eapply runs_if; [cbn [ceval ieval]; rewrite Z9; reflexivity|]. cbn [Nat.eqb]. apply runs_skip. exists off', c'. split; [exact Az|]. congruence.
Qed.

Lemma start_sig : exists c, hp m0 c /\ forall k e, k < T -> e < pb -> c (part_at P k e) = proof_part (fresh k) e.
Proof.
  destruct (de_fresh _ _ _ _ _ _ HM) as [F1 (l0 & F2 & F3) (l1 & F4 & F5) F6]. fold T in F5, F6. fold pb in F6. pose proof pb_bounds as [Pb _].
  set (c := fun j => if j =? 0 then l0 else if j =? 1 then l1 else proof_part (fresh ((j - 2) / pb)) ((j - 2) mod pb)).
  assert (X : forall k e, k < T -> e < pb -> c (part_at P k e) = proof_part (fresh k) e).
  { intros k e Hk He. unfold c, part_at. fold pb. cbn [Nat.add Nat.eqb]. replace (S (S (pb * k + e)) - 2) with (e + k * pb) by lia. rewrite Nat.div_add, Nat.mod_add, Nat.div_small, Nat.mod_small by lia. reflexivity. }
  assert (Y : forall j, j < sig_count P -> filled st (g j) (sig_size P j) (c j)).
  { intros j Hj. destruct j as [|[|j]]; [split; assumption|split; assumption|]. unfold sig_count in Hj. fold pb T in Hj. pose proof (Nat.div_mod_eq j pb) as DM. pose proof (Nat.mod_upper_bound j pb ltac:(lia)) as MU.
    assert (Hk : j / pb < T) by (apply Nat.div_lt_upper_bound; lia). replace (S (S j)) with (part_at P (j / pb) (j mod pb)) by (unfold part_at; fold pb; lia).
    rewrite size_part, X by assumption. apply F6; assumption. }
  exists c. split; [|exact X]. split.
  - split; cbn [sl cnt reg sz]; [lia|intros j Hj; apply (Y j Hj)|].
    intros i j Hi Hj Hij. apply (F1 i j (g i) (sig_size P i) (g j) (sig_size P j)); auto; unfold sig_writes; apply (CodeSignThm.nth_map_seq (fun j => (g j, sig_size P j))); assumption.
  - intros j Hj. apply (Y j Hj).
  - intros j Hj. apply (Y j Hj).
  - intros j Hj. apply (Y j Hj).
  - intros b _. auto.
Qed.

Lemma run_deserialize r : deserializeSignature E P sg = Ok r ->
  runs U (c_deserialize P) st (fun z => nx z = n0 /\ chg n0 m0 (mm z) (sig_writes P g) /\
    match r with Some s => iv z 5 = 1 /\ signature_held P z g s | None => iv z 5 = 0 end).
Proof.
  intros Hr. unfold deserializeSignature in Hr. fold T in Hr. cbv zeta in Hr. unfold c_deserialize. fold T. destruct start_sig as (c0 & H0 & Cf). pose proof pb_bounds as [Pb _]. destruct pos1 as (PS & _). pose proof (w1_T P HP1) as HT. fold T in HT. pose proof (numBytes_spec (2 * T)) as Hnb.
  apply runs_seq, runs_iset. unfold set_iv. cbn [ieval]. set (y := mkState _ _ _ _ _ _).
  assert (By : nx y = n0 /\ mm y = m0 /\ pv y = pv st /\ iv y 0 = length sg /\ iv y 5 = 0).
  { repeat split. cbn [y iv]. rewrite upd_neq by discriminate. apply (de_len _ _ _ _ _ _ HM). }
  clearbody y. destruct By as (Y1 & Y2 & Y3 & Y4 & Y5).
  assert (Bad : forall z, nx z = n0 -> mm z = m0 -> iv z 5 = 0 -> nx z = n0 /\ chg n0 m0 (mm z) (sig_writes P g) /\ iv z 5 = 0) by (intros z Z1 Z2 Z3; split; [exact Z1|]; split; [rewrite Z2; intros b _; auto|exact Z3]).
  eapply runs_if; [cbn [ceval ieval]; rewrite Y4; reflexivity|]. destruct (Nat.ltb_spec (length sg) (numBytes (2 * T))) as [L|L].
  { injection Hr as <-. apply runs_skip. apply Bad; assumption. }
  inv_bind Hr. rename x into size, Hx into Hsz. apply runs_seq.
  eapply runs_call; [cbn [pargevals pargeval pevals]; reflexivity|]. cbn [map].
  destruct (de_sig _ _ _ _ _ _ HM) as [Ps Rs].
  eapply runs_mono; [apply (h_share_size _ ps size); [cbn [P0 peval pv args nth iv ieval]; rewrite Y3, Ps; reflexivity| |exact Hsz|exact L]|].
  { cbn [nx mm]. rewrite Y1, Y2. apply Rs. }
  intros w (W1 & W2 & W3 & W4). cbn [pv mm nx] in W3, W4. cbn [copy_back fst snd].
  apply runs_seq, runs_iset. unfold set_iv. cbn [ieval iv dv pv mm nx ct]. rewrite upd_eq, W1. apply runs_seq.
  set (expect := numBytes (2 * T) + saltSizeBytes P + T * (2 * seedSizeBytes P + andSizeBytes P + digestSizeBytes P) + size + (if is_UR (transf P) then UnruhGWithoutInputBytes P * T else 0)) in *.
  match goal with |- runs _ _ ?y0 _ => apply (runs_mono U _ y0 (fun z => iv z 7 = expect /\ nx z = n0 /\ mm z = m0 /\ pv z = pv st /\ iv z 0 = length sg /\ iv z 5 = 0)) end.
  { unfold expect. destruct (is_UR (transf P)); [apply runs_iset|apply runs_skip]; unfold set_iv; cbn [iv pv mm nx upd Nat.eqb ieval]; repeat split; try congruence; lia. }
  clear W1 W2 W3 W4 w Y1 Y2 Y3 Y4 Y5 y. intros y (Y7 & Y1 & Y2 & Y3 & Y4 & Y5).
  eapply runs_if; [cbn [ceval ieval]; rewrite Y4, Y7; reflexivity|]. destruct (Nat.ltb_spec (length sg) expect) as [L'|L'].
  { injection Hr as <-. apply runs_skip. apply Bad; assumption. }
  rewrite slice0_ok in Hr by lia. cbn [bind] in Hr. inv_bind Hr. rename x into v, Hx into Hv.
  apply runs_seq, runs_iset. unfold set_iv. cbn [ieval]. set (x := mkState _ _ _ _ _ _).
  assert (Ax : at_in x 0 c0) by (split; cbn [x iv pv mm nx upd Nat.eqb]; auto; rewrite Y2; exact H0). assert (X5 : iv x 5 = 0) by exact Y5. clearbody x.
  apply runs_seq. apply (h_take _ _ 1 x 0 c0); auto; [|unfold sig_count; lia|lia|].
  { cbn [P0 peval ieval]. rewrite (ai_pv _ _ _ Ax), (de_chal _ _ _ _ _ _ HM). reflexivity. }
  cbn [Nat.add]. intros y1 A1 J1. set (c1 := cset c0 1 _) in A1.
  assert (C1 : c1 1 = cb).
  { unfold c1. rewrite cset_eq. pose proof (heap_len _ _ _ _ _ _ H0 1 ltac:(cbn [sl cnt]; unfold sig_count; lia)) as L1. cbn [sl sz sig_size Nat.eqb] in L1. unfold sig_size in L1. cbn [Nat.eqb] in L1. fold T in L1.
    unfold blit_list. cbn [firstn skipn app]. rewrite skipn_all2 by (rewrite firstn_length; cbn [Nat.add]; lia). apply app_nil_r. }
  assert (Cf1 : forall k e, 0 <= k < T -> e < pb -> c1 (part_at P k e) = proof_part (fresh k) e) by (intros k e Hk He; unfold c1; rewrite cset_neq by (unfold part_at; lia); apply Cf; [lia|exact He]).
  assert (I15 : iv y1 5 = 0) by (rewrite J1 by discriminate; exact X5). clearbody c1. clear J1 X5 Ax x.
  apply runs_seq. eapply runs_call; [cbn [pargevals pargeval pevals]; reflexivity|]. cbn [map].
  eapply runs_mono; [apply (h_valid cb T 0 _ (g 1) v); [cbn [P0 peval pv args nth iv ieval]; rewrite (ai_pv _ _ _ A1), (de_chal _ _ _ _ _ _ HM); reflexivity| |exact Hv|rewrite firstn_length; lia]|].
  { cbn [nx mm]. rewrite (ai_nx _ _ _ A1). pose proof (heap_pts _ _ _ _ _ _ (ai_hp _ _ _ A1) 1 ltac:(cbn [sl cnt]; unfold sig_count; lia)) as X. rewrite C1 in X. exact X. }
  intros w (W5 & W2 & W3 & W4). cbn [pv mm nx] in W3, W4. cbn [copy_back fst snd]. set (y2 := mkState _ _ _ _ _ _).
  assert (A2 : at_in y2 (numBytes (2 * T)) c1).
  { destruct A1 as [B1 B2 B3 B4 B5]. split; cbn [y2 iv pv mm nx upd Nat.eqb]; auto; [congruence|rewrite W3; exact B5]. }
  assert (I2 : iv y2 5 = 0 /\ iv y2 8 = if v then 1 else 0) by (split; [exact I15|exact W5]). clearbody y2. clear W5 W2 W3 W4 w I15 A1 y1.
  assert (Out : forall z off' c', at_in z off' c' -> nx z = n0 /\ chg n0 m0 (mm z) (sig_writes P g)) by (intros z off' c' [Z1 Z2 Z3 Z4 Z5]; split; [exact Z2|exact (heap_chg _ _ _ _ _ _ Z5)]).
  destruct v; cbn [negb] in Hr.
  2:{ injection Hr as <-. eapply runs_if; [cbn [ceval ieval]; rewrite (proj2 I2); reflexivity|]. cbn [Nat.eqb]. apply runs_skip. destruct (Out _ _ _ A2). split; [assumption|]. split; [assumption|]. apply I2. }
  eapply runs_if; [cbn [ceval ieval]; rewrite (proj2 I2); reflexivity|]. cbn [Nat.eqb].
  inv_bind Hr. apply slice_inv in Hx. destruct Hx as [Ls ->].
  apply runs_seq. apply (h_take _ _ 0 y2 (numBytes (2 * T)) c1); auto; [|unfold sig_count; lia|].
  { cbn [P0 peval ieval]. rewrite (ai_pv _ _ _ A2), (de_salt _ _ _ _ _ _ HM). reflexivity. }
  intros y3 A3 J3. set (c3 := cset c1 0 _) in A3. revert Hr. set (salt := firstn (saltSizeBytes P) (skipn (numBytes (2 * T)) sg)) in *. intros Hr.
  assert (C3 : c3 0 = salt).
  { unfold c3. rewrite cset_eq. pose proof (heap_len _ _ _ _ _ _ (ai_hp _ _ _ A2) 0 ltac:(cbn [sl cnt]; unfold sig_count; lia)) as L1. cbn [sl sz] in L1. unfold sig_size in L1. cbn [Nat.eqb] in L1.
    unfold blit_list. cbn [firstn skipn app]. rewrite skipn_all2 by (unfold salt; rewrite firstn_length, skipn_length; cbn [Nat.add]; lia). apply app_nil_r. }
  assert (C31 : c3 1 = cb) by (unfold c3; rewrite cset_neq by discriminate; exact C1).
  assert (Cf3 : forall k e, 0 <= k < T -> e < pb -> c3 (part_at P k e) = proof_part (fresh k) e) by (intros k e Hk He; unfold c3; rewrite cset_neq by (unfold part_at; lia); apply Cf1; assumption).
  assert (I3 : iv y3 5 = 0) by (rewrite J3 by discriminate; apply I2). clearbody c3.
  inv_bind Hr. rename x into r1, Hx into Hr1.
  eapply runs_mono; [apply (h_take_rounds T 0 y3 (numBytes (2 * T) + saltSizeBytes P) c3 r1); auto|].
  intros z (off' & c' & Az & Hz). destruct (Out _ _ _ Az) as [O1 O2]. split; [exact O1|]. split; [exact O2|].
  destruct r1 as [l|]; injection Hr as <-; [|exact Hz]. destruct Hz as (Z5 & Zl & Z0 & Z1 & _ & Zn). split; [exact Z5|].
  assert (Fill : forall j, j < sig_count P -> filled z (g j) (sig_size P j) (c' j)).
  { intros j Hj. destruct Az as [_ B2 _ _ B5]. split; [split|]; [rewrite B2; exact (heap_pts _ _ _ _ _ _ B5 j Hj)|exact (heap_ok _ _ _ _ _ _ B5 j Hj)|exact (heap_len _ _ _ _ _ _ B5 j Hj)]. }
  split; [|split; [|split; [exact Zl|]]].
  - cbn [s_salt]. rewrite <- C3, <- Z0. apply (Fill 0). unfold sig_count. lia.
  - cbn [s_challengeBits]. rewrite <- Z1. apply (Fill 1). unfold sig_count. lia.
  - cbn [s_proofs]. intros k Hk. destruct (Zn k Hk) as (pr & N1 & N2). exists pr. split; [exact N1|]. intros e He. cbn [Nat.add] in N2. rewrite <- (N2 e He), <- (size_part k e He). apply Fill, part_lt; assumption.
Qed.

(** ** Where the reader runs past the signature, which ends with its block *)
Definition fails (s : stmt) (y : state) : Prop := run U s y = None.
Lemma fails_seq1 s1 s2 y : fails s1 y -> fails (s1 ;; s2) y.
Proof. unfold fails. cbn [run andthen]. intros ->. reflexivity. Qed.
Lemma fails_seq s1 s2 y : runs U s1 y (fun z => fails s2 z) -> fails (s1 ;; s2) y.
Proof. unfold fails, runs. cbn [run]. destruct (run U s1 y) as [[z t]|]; [|contradiction]. cbn [andthen]. intros ->. reflexivity. Qed.
Lemma fails_if c b s1 s2 y : ceval (iv y) (pv y) c = Some b -> fails (if b then s1 else s2) y -> fails (If c s1 s2) y.
Proof. unfold fails. cbn [run]. intros ->. destruct b; intros ->; reflexivity. Qed.

Hypothesis Hend : length (mm st (fst ps)) = snd ps + length sg.

Lemma take_fails dst n y off c : at_in y off c -> length sg < off + n -> fails (c_take dst n) y.
Proof.
  intros [A1 A2 A3 A4 A5] H. apply fails_seq1. unfold fails. cbn [run]. assert (Ep : peval (iv y) (pv y) (PAdd (P0 0) (IV 4)) = Some (fst ps, snd ps + off)).
  { cbn [P0 peval ieval]. rewrite A1, (proj1 (de_sig _ _ _ _ _ _ HM)), A3. cbn [nth_error]. rewrite (surjective_pairing ps) at 1. reflexivity. }
  rewrite Ep. destruct (peval (iv y) (pv y) dst) as [d|]; [|reflexivity]. cbn [ieval].
  assert (V : valid (mm y) n 1 (fst ps, snd ps + off) = false).
  { unfold valid. cbn [fst snd]. destruct ro_sig as [[R1 _] _]. destruct (heap_chg _ _ _ _ _ _ A5 (fst ps) R1) as [L _]. rewrite L. unfold m0. rewrite Hend. rewrite (proj2 (Nat.leb_gt _ _)) by lia. reflexivity. }
  rewrite V, andb_false_r. reflexivity.
Qed.

Definition at_off (y : state) (off ch : nat) : Prop := iv y 1 = ch /\ exists c, at_in y off c.
Lemma part_fails k e n y off ch s : k < T -> e < pb -> at_off y off ch -> 0 < n -> n <= part_size P e ->
  (off + n <= length sg -> forall z, at_off z (off + n) ch -> fails s z) -> fails (c_take (part_of P k e) n ;; s) y.
Proof.
  intros Hk He [I1 (c & A)] Hn Hs H. destruct (Nat.le_gt_cases (off + n) (length sg)) as [L|L]; [|apply fails_seq1; apply (take_fails _ _ y off c A L)].
  apply fails_seq. apply (h_take_part k e n y off c); auto. intros z Az Iz. apply (H L). split; [rewrite Iz by discriminate; exact I1|eauto].
Qed.

Lemma fresh_len k e : k < T -> e < pb -> length (proof_part (fresh k) e) = part_size P e.
Proof. intros Hk He. apply (fs_parts _ _ _ _ (de_fresh _ _ _ _ _ _ HM) k e Hk He). Qed.

Lemma round_fails k y off c : k < T -> at_in y off c -> c 1 = cb -> numBytes (2 * T) <= length sg -> deserialize_round E P cb sg off k = UB -> fails (c_take_round P k) y.
Proof.
  intros Hk A C1 Hl Hr. pose proof pb_bounds as [Pb PU]. destruct pos1 as (_ & P1 & P2 & P3 & P4). pose proof (numBytes_spec (2 * T)) as Hnb.
  assert (Hch : 2 * k + 1 < 8 * length cb) by (rewrite firstn_length; lia).
  unfold deserialize_round in Hr. set (ch := chalv cb k). assert (Hc : getChallenge cb k = Ok ch) by (apply getChallenge_ok; exact Hch). rewrite Hc in Hr. cbn [bind] in Hr.
  pose proof (fresh_len k) as FL.
  assert (Step : forall e n o (B : Type) (f : bytes -> res B) b, b = proof_part (fresh k) e -> e < pb -> n <= part_size P e -> o + n <= length sg -> (x <- slice sg o n ;; x <- blit b 0 x ;; f x) = UB -> f (blit_list b 0 (firstn n (skipn o sg))) = UB).
  { intros e n o B f b -> He Hn Ho Hf. rewrite slice_ok in Hf by exact Ho. cbn [bind] in Hf. rewrite blit_ok in Hf; [exact Hf|]. rewrite firstn_length, FL by auto. lia. }
  unfold c_take_round. apply fails_seq, runs_iset. unfold set_iv. cbn [ieval]. apply fails_seq.
  apply (h_getChallenge n0 m0 U sl _ _ _ _ c (g 1) cb ch); cbn [iv pv mm nx ieval].
  { cbn [P0 peval ieval]. rewrite (ai_pv _ _ _ A), (de_chal _ _ _ _ _ _ HM). reflexivity. }
  { right. exists 1. split; [cbn [sl cnt]; unfold sig_count; lia|]. split; [reflexivity|]. symmetry. exact C1. }
  { rewrite (ai_nx _ _ _ A). apply (ai_hp _ _ _ A). }
  { exact Hc. }
  { exact Hch. }
  intros u. set (y0 := mkState _ _ _ _ _ _). assert (A0 : at_off y0 off ch) by (split; [reflexivity|exists c; destruct A; split; auto]). clearbody y0. clear A C1.
  apply (part_fails k 4 _ y0 off ch); auto; [lia|]. intros L4 y1 A1. apply (Step 4) in Hr; [|reflexivity|lia|reflexivity|exact L4]. cbv zeta in Hr.
  assert (Next : forall o2 y2 v3g, at_off y2 o2 ch ->
     (comm <- slice sg o2 (andSizeBytes P) ;; comm <- blit (p_communicatedBits (fresh k)) 0 comm ;;
      s1 <- slice sg (o2 + andSizeBytes P) (seedSizeBytes P) ;; s1 <- blit (p_seed1 (fresh k)) 0 s1 ;;
      s2 <- slice sg (o2 + andSizeBytes P + seedSizeBytes P) (seedSizeBytes P) ;; s2 <- blit (p_seed2 (fresh k)) 0 s2 ;;
      if (ch =? 1) || (ch =? 2) then
        i <- slice sg (o2 + andSizeBytes P + seedSizeBytes P + seedSizeBytes P) (stateSizeBytes P) ;;
        i <- blit (p_inputShare (fresh k)) 0 i ;;
        okp <- arePaddingBitsZero i (stateSizeBits P) ;;
        if (okp : bool) then Ok (Some (mkProof s1 s2 i comm (blit_list (p_view3Commitment (fresh k)) 0 (firstn (digestSizeBytes P) (skipn off sg))) v3g, o2 + andSizeBytes P + seedSizeBytes P + seedSizeBytes P + stateSizeBytes P)) else Ok None
      else Ok (Some (mkProof s1 s2 (p_inputShare (fresh k)) comm (blit_list (p_view3Commitment (fresh k)) 0 (firstn (digestSizeBytes P) (skipn off sg))) v3g, o2 + andSizeBytes P + seedSizeBytes P + seedSizeBytes P))) = UB ->
     fails (c_take (part_of P k 3) (andSizeBytes P) ;; c_take (part_of P k 0) (seedSizeBytes P) ;; c_take (part_of P k 1) (seedSizeBytes P) ;;
       If (CEq (IV 1) (IC 1)) (c_take_share P k) (If (CEq (IV 1) (IC 2)) (c_take_share P k) Skip)) y2).
  { clear Hr A1 y1 A0 y0. intros o2 y2 v3g A2 Hr.
    apply (part_fails k 3 _ y2 o2 ch); auto; [lia|]. intros L3 y3 A3. apply (Step 3) in Hr; [|reflexivity|lia|reflexivity|exact L3].
    apply (part_fails k 0 _ y3 _ ch _ Hk ltac:(lia) A3 P1); [reflexivity|]. intros L0 y4 A4. apply (Step 0) in Hr; [|reflexivity|lia|reflexivity|exact L0].
    apply (part_fails k 1 _ y4 _ ch _ Hk ltac:(lia) A4 P1); [reflexivity|]. intros L1 y5 A5. apply (Step 1) in Hr; [|reflexivity|lia|reflexivity|exact L1].
    assert (Sh : (ch =? 1) || (ch =? 2) = true -> fails (c_take_share P k) y5).
    { intros Hb. rewrite Hb in Hr. apply (part_fails k 2 _ y5 _ ch _ Hk ltac:(lia) A5 P3); [reflexivity|]. intros L2 y6 A6. exfalso. apply (Step 2) in Hr; [|reflexivity|lia|reflexivity|exact L2].
      destruct (arePaddingBitsZero_P P (blit_list (p_inputShare (fresh k)) 0 (firstn (stateSizeBytes P) (skipn (o2 + andSizeBytes P + seedSizeBytes P + seedSizeBytes P) sg))) (w1_wfP P HP1)) as (v & Ev & _).
      - pose proof (FL 2 Hk ltac:(lia)) as F2. cbn [proof_part part_size] in F2. rewrite length_blit_list; [lia|]. rewrite firstn_length. lia.
      - rewrite Ev in Hr. cbn [bind] in Hr. destruct v; discriminate Hr. }
    destruct A5 as [I5 _]. eapply fails_if; [cbn [ceval ieval]; rewrite I5; reflexivity|]. destruct (ch =? 1); [apply Sh; reflexivity|].
    eapply fails_if; [cbn [ceval ieval]; rewrite I5; reflexivity|]. destruct (ch =? 2); [apply Sh; reflexivity|]. discriminate Hr. }
  destruct (is_UR (transf P)) eqn:Hu.
  - specialize (PU eq_refl). specialize (P4 eq_refl). pose proof (w1_Gw P HP1 Hu) as W1. pose proof (w1_Gwo P HP1 Hu) as W2. revert Hr. set (len := if ch =? 0 then UnruhGWithInputBytes P else UnruhGWithoutInputBytes P). intros Hr. assert (Hle : 0 < len /\ len <= UnruhGWithInputBytes P) by (unfold len; destruct (ch =? 0); lia).
    destruct A1 as [I1 (c1 & A1)].
    assert (Eg : forall Q : state -> Prop, runs U (c_take (part_of P k 5) len) y1 Q -> runs U (If (CEq (IV 1) (IC 0)) (c_take (part_of P k 5) (UnruhGWithInputBytes P)) (c_take (part_of P k 5) (UnruhGWithoutInputBytes P))) y1 Q).
    { intros Q HQ. eapply runs_if; [cbn [ceval ieval]; rewrite I1; reflexivity|]. unfold len in HQ. destruct (ch =? 0); exact HQ. }
    destruct (Nat.le_gt_cases (off + digestSizeBytes P + len) (length sg)) as [L5|L5].
    + apply fails_seq, Eg. apply (h_take_part k 5 len y1 _ c1 _ Hk ltac:(lia) A1); [lia|cbn [part_size]; lia|exact L5|]. intros y2 A2 J2. eapply Next.
      * split; [rewrite J2 by discriminate; exact I1|]. eexists. exact A2.
      * rewrite slice_ok in Hr by exact L5. cbn [bind] in Hr. rewrite blit_ok in Hr; [cbn [bind] in Hr; exact Hr|]. pose proof (FL 5 Hk ltac:(lia)) as F5. cbn [proof_part part_size] in F5. rewrite firstn_length. lia.
    + apply fails_seq1. eapply fails_if; [cbn [ceval ieval]; rewrite I1; reflexivity|]. unfold len in L5. destruct (ch =? 0); apply (take_fails _ _ y1 _ c1 A1 L5).
  - apply fails_seq, runs_skip. cbn [bind] in Hr. eapply Next; [exact A1|exact Hr].
Qed.

Lemma rounds_fail n : forall i y off c, i + n = T -> at_in y off c -> c 1 = cb -> (forall k e, i <= k < T -> e < pb -> c (part_at P k e) = proof_part (fresh k) e) -> numBytes (2 * T) <= length sg ->
  deserialize_rounds E P n i cb sg off = UB -> fails (c_take_rounds P (seq i n)) y.
Proof.
  pose proof pb_bounds as [Pb _]. induction n as [|n IH]; intros i y off c Hi A C1 Cf Hl Hr; [discriminate Hr|]. cbn [seq c_take_rounds]. cbn [deserialize_rounds] in Hr.
  destruct (deserialize_round E P cb sg off i) as [r| | |] eqn:Er; cbn [bind] in Hr; try discriminate Hr; [|apply fails_seq1, (round_fails i y off c); auto; lia].
  apply fails_seq. eapply runs_mono; [apply (h_take_round i y off c r); auto; [lia|intros e He; apply Cf; [lia|exact He]]|].
  intros z [_ Hz]. destruct r as [[pr off1]|]; [|discriminate Hr]. destruct Hz as (Z9 & c1 & Az & V & V'). eapply fails_if; [cbn [ceval ieval]; rewrite Z9; reflexivity|]. cbn [Nat.eqb].
  apply (IH (S i) z off1 c1); auto; [lia| | |].
  - rewrite V'; [exact C1|]. intros e' He'. unfold part_at. lia.
  - intros k e Hk He. rewrite V'; [apply Cf; [lia|exact He]|]. intros e' He'. unfold part_at. fold pb. nia.
  - destruct (deserialize_rounds E P n (S i) cb sg off1) as [[l|]| | |]; try discriminate Hr; reflexivity.
Qed.

Lemma deserialize_fails : deserializeSignature E P sg = UB -> fails (c_deserialize P) st.
Proof.
  intros Hr. unfold deserializeSignature in Hr. fold T in Hr. cbv zeta in Hr. unfold c_deserialize. fold T. destruct start_sig as (c0 & H0 & Cf). pose proof pb_bounds as [Pb _]. destruct pos1 as (PS & _). pose proof (w1_T P HP1) as HT. fold T in HT. pose proof (numBytes_spec (2 * T)) as Hnb.
  apply fails_seq, runs_iset. unfold set_iv. cbn [ieval]. set (y := mkState _ _ _ _ _ _).
  assert (By : nx y = n0 /\ mm y = m0 /\ pv y = pv st /\ iv y 0 = length sg /\ iv y 5 = 0).
  { repeat split. cbn [y iv]. rewrite upd_neq by discriminate. apply (de_len _ _ _ _ _ _ HM). }
  clearbody y. destruct By as (Y1 & Y2 & Y3 & Y4 & Y5).
  eapply fails_if; [cbn [ceval ieval]; rewrite Y4; reflexivity|]. destruct (Nat.ltb_spec (length sg) (numBytes (2 * T))) as [L|L]; [discriminate Hr|].
  destruct (computeInputShareSize P sg) as [size| | |] eqn:Hsz; cbn [bind] in Hr; try discriminate Hr; [|exfalso; rewrite ZkbCodec.computeInputShareSize_eq in Hsz by exact L; discriminate Hsz].
  apply fails_seq. eapply runs_call; [cbn [pargevals pargeval pevals]; reflexivity|]. cbn [map].
  destruct (de_sig _ _ _ _ _ _ HM) as [Ps Rs].
  eapply runs_mono; [apply (h_share_size _ ps size); [cbn [P0 peval pv args nth iv ieval]; rewrite Y3, Ps; reflexivity| |exact Hsz|exact L]|].
  { cbn [nx mm]. rewrite Y1, Y2. apply Rs. }
  intros w (W1 & W2 & W3 & W4). cbn [pv mm nx] in W3, W4. cbn [copy_back fst snd].
  apply fails_seq, runs_iset. unfold set_iv. cbn [ieval iv dv pv mm nx ct]. rewrite upd_eq, W1. apply fails_seq.
  set (expect := numBytes (2 * T) + saltSizeBytes P + T * (2 * seedSizeBytes P + andSizeBytes P + digestSizeBytes P) + size + (if is_UR (transf P) then UnruhGWithoutInputBytes P * T else 0)) in *.
  match goal with |- runs _ _ ?y0 _ => apply (runs_mono U _ y0 (fun z => iv z 7 = expect /\ nx z = n0 /\ mm z = m0 /\ pv z = pv st /\ iv z 0 = length sg /\ iv z 5 = 0)) end.
  { unfold expect. destruct (is_UR (transf P)); [apply runs_iset|apply runs_skip]; unfold set_iv; cbn [iv pv mm nx upd Nat.eqb ieval]; repeat split; try congruence; lia. }
  clear W1 W2 W3 W4 w Y1 Y2 Y3 Y4 Y5 y. intros y (Y7 & Y1 & Y2 & Y3 & Y4 & Y5).
  eapply fails_if; [cbn [ceval ieval]; rewrite Y4, Y7; reflexivity|]. destruct (Nat.ltb_spec (length sg) expect) as [L'|L']; [discriminate Hr|].
  rewrite slice0_ok in Hr by lia. cbn [bind] in Hr.
  destruct (isChallengeValid_spec P cb) as (v & Hv & _); [rewrite firstn_length; fold T; lia|]. rewrite Hv in Hr. cbn [bind] in Hr. destruct v; [|discriminate Hr]. cbn [negb] in Hr.
  apply fails_seq, runs_iset. unfold set_iv. cbn [ieval]. set (x := mkState _ _ _ _ _ _).
  assert (Ax : at_in x 0 c0) by (split; cbn [x iv pv mm nx upd Nat.eqb]; auto; rewrite Y2; exact H0). clearbody x.
  apply fails_seq. apply (h_take _ _ 1 x 0 c0); auto; [|unfold sig_count; lia|lia|].
  { cbn [P0 peval ieval]. rewrite (ai_pv _ _ _ Ax), (de_chal _ _ _ _ _ _ HM). reflexivity. }
  cbn [Nat.add]. intros y1 A1 J1. set (c1 := cset c0 1 _) in A1.
  assert (C1 : c1 1 = cb).
  { unfold c1. rewrite cset_eq. pose proof (heap_len _ _ _ _ _ _ H0 1 ltac:(cbn [sl cnt]; unfold sig_count; lia)) as L1. cbn [sl sz sig_size Nat.eqb] in L1. unfold sig_size in L1. cbn [Nat.eqb] in L1. fold T in L1.
    unfold blit_list. cbn [firstn skipn app]. rewrite skipn_all2 by (rewrite firstn_length; cbn [Nat.add]; lia). apply app_nil_r. }
  assert (Cf1 : forall k e, 0 <= k < T -> e < pb -> c1 (part_at P k e) = proof_part (fresh k) e) by (intros k e Hk He; unfold c1; rewrite cset_neq by (unfold part_at; lia); apply Cf; [lia|exact He]).
  clearbody c1. clear J1 Ax x.
  apply fails_seq. eapply runs_call; [cbn [pargevals pargeval pevals]; reflexivity|]. cbn [map].
  eapply runs_mono; [apply (h_valid cb T 0 _ (g 1) true); [cbn [P0 peval pv args nth iv ieval]; rewrite (ai_pv _ _ _ A1), (de_chal _ _ _ _ _ _ HM); reflexivity| |exact Hv|rewrite firstn_length; lia]|].
  { cbn [nx mm]. rewrite (ai_nx _ _ _ A1). pose proof (heap_pts _ _ _ _ _ _ (ai_hp _ _ _ A1) 1 ltac:(cbn [sl cnt]; unfold sig_count; lia)) as X. rewrite C1 in X. exact X. }
  intros w (W5 & W2 & W3 & W4). cbn [pv mm nx] in W3, W4. cbn [copy_back fst snd]. set (y2 := mkState _ _ _ _ _ _).
  assert (A2 : at_in y2 (numBytes (2 * T)) c1).
  { destruct A1 as [B1 B2 B3 B4 B5]. split; cbn [y2 iv pv mm nx upd Nat.eqb]; auto; [congruence|rewrite W3; exact B5]. }
  assert (I2 : iv y2 8 = 1) by exact W5. clearbody y2.
  eapply fails_if; [cbn [ceval ieval]; rewrite I2; reflexivity|]. cbn [Nat.eqb]. rewrite slice_ok in Hr by lia. cbn [bind] in Hr.
  apply fails_seq. apply (h_take _ _ 0 y2 (numBytes (2 * T)) c1); auto; [|unfold sig_count; lia|lia|].
  { cbn [P0 peval ieval]. rewrite (ai_pv _ _ _ A2), (de_salt _ _ _ _ _ _ HM). reflexivity. }
  intros y3 A3 J3. apply (rounds_fail T 0 y3 _ _ (Nat.add_0_l T) A3); auto.
  destruct (deserialize_rounds E P T 0 cb sg _) as [[l|]| | |]; try discriminate Hr; reflexivity.
Qed.
End S.

Lemma deserialize_total E p P sg : get_param_set p = Some P -> is_picnic3 p = false -> env_bytes_ok E -> bytes_ok sg ->
  (exists r, deserializeSignature E P sg = Ok r) \/ deserializeSignature E P sg = UB /\ is_UR (transf P) = true.
Proof.
  intros HP Hp HE Hb. pose proof (ZkbApi.deserialize_shape E P (get_param_set_wfP1 p P HP Hp) HE (uninit E) sg) as Hsh. rewrite ZkbRound.with_uninit_id in Hsh. destruct (Hsh HE) as [K L]. clear Hsh.
  pose proof (deserialize_spec E P (get_param_set_wfP1 p P HP Hp) HE sg Hb) as Hs. destruct (deserializeSignature E P sg) as [r| | |] eqn:Ed; cbn [ZkbApi.same_kind ZkbApi.ok_some] in K, L; try contradiction.
  - left. eauto.
  - right. split; [reflexivity|]. destruct (is_UR (transf P)) eqn:Hur; [reflexivity|]. exfalso. apply Hs. unfold long_enough. congruence.
Qed.

Theorem deserialize_code U E p P st g ps sg :
  get_param_set p = Some P -> is_picnic3 p = false -> env_bytes_ok E -> deserialize_call P E st g ps sg ->
  match deserializeSignature E P sg with
  | Ok r => exists st' t, run U (c_deserialize P) st = Some (st', t) /\
      nx st' = nx st /\ chg (nx st) (mm st) (mm st') (sig_writes P g) /\
      match r with Some s => iv st' 5 = 1 /\ signature_held P st' g s | None => iv st' 5 = 0 end
  | UB => transf P = TRANSFORM_UR /\ (length (mm st (fst ps)) = snd ps + length sg -> run U (c_deserialize P) st = None)
  | _ => False
  end.
Proof.
  intros HP Hp HE HM. assert (Bs : bytes_ok sg) by apply (de_sig _ _ _ _ _ _ HM).
  destruct (deserialize_total E p P sg HP Hp HE Bs) as [[r Hr]|[Hr Hu]].
  2:{ rewrite Hr. split; [destruct (transf P); [discriminate Hu|reflexivity|discriminate Hu]|]. intros Hend.
    apply (deserialize_fails U E P (get_param_set_wfP1 p P HP Hp) (CodeVerRoundThm.get_param_set_digest p P HP) (get_param_set_pos p P HP) st g ps sg HM Hend Hr). }
  rewrite Hr. pose proof (run_deserialize U E P (get_param_set_wfP1 p P HP Hp) (CodeVerRoundThm.get_param_set_digest p P HP) (get_param_set_pos p P HP) st g ps sg HM r Hr) as R.
  unfold runs in R. destruct (run U (c_deserialize P) st) as [[z t]|]; [|contradiction]. exists z, t. split; [reflexivity|exact R].
Qed.

(** Of the plaintext, verification reads whole words of the block only. *)
Section Trunc.
Variables (E : env) (P : paramset) (HP : wfP P) (pt : bytes) (HL : 4 * stateSizeWords P <= length pt).
Notation pt' := (firstn (4 * stateSizeWords P) pt).
Lemma mpc_verify_trunc v1 v2 tape n ch : mpc_LowMC_verify E P v1 v2 tape n pt' ch = mpc_LowMC_verify E P v1 v2 tape n pt ch.
Proof. unfold mpc_LowMC_verify, mpc_xor_constant_verify, xor_array. rewrite (CodeSerializeProofs.slice_trunc P pt HL) by lia. reflexivity. Qed.
Lemma verifyProof_trunc pr v1 v2 ch salt k tmp tape : verifyProof E P pr v1 v2 ch salt k tmp pt' tape = verifyProof E P pr v1 v2 ch salt k tmp pt tape.
Proof.
  unfold verifyProof. repeat first [rewrite mpc_verify_trunc; reflexivity|reflexivity|match goal with |- bind ?x _ = bind ?x _ => destruct x; cbn [bind]; [|reflexivity..] end|match goal with |- (let '(_, _) := ?x in _) = _ => destruct x end].
Qed.
Lemma verify_round_trunc k pr ch salt pub : verify_round E P k pr ch salt pub pt' = verify_round E P k pr ch salt pub pt.
Proof.
  unfold verify_round. destruct (getChallenge ch k); cbn [bind]; [|reflexivity..]. rewrite verifyProof_trunc. reflexivity.
Qed.
Lemma verify_trunc fuel s pub msg : verify E P fuel s pub pt' msg = verify E P fuel s pub pt msg.
Proof.
  unfold verify. rewrite (mapM_seq_ext _ _ _ (fun i => pr <- rd (s_proofs s) i ;; verify_round E P i pr (s_challengeBits s) (s_salt s) pub pt)).
  - destruct (mapM_seq _ _ _); cbn [bind]; [|reflexivity..]. rewrite (CodeSerializeProofs.H3_trunc E P HP pt HL). reflexivity.
  - intros i Hi. destruct (rd _ _); cbn [bind]; [|reflexivity..]. apply verify_round_trunc.
Qed.
End Trunc.
