(** The views of two parties of the three-party evaluation do not depend on the key: any other
    input share of the third party is explained by exactly one tape of that party. *)

From Coq Require Import List NArith Arith Bool Btauto Lia ZifyBool ZifyNat ZifyN.
From Verif Require Import Base Params Env Spec LowMC Picnic1 BaseFacts ParamFacts LowMCFacts
  LowMCInj Hint ZkbMpc Zkb SigSpec ZkbRound ZkbChal ZkbTop PrivacySpec.
Import ListNotations.

(** ** Bit level: party [h], its predecessor [a] and its successor [c] *)
Section Bits.
Variable L : lowmc.
Variable pt : vec.
Variables ca ch cc : bool.
Variables xa xh xc : vec.
Variables ha hc ta tc : vec.
Let m := lm_m L.
Let R := lm_r L.
Hypothesis Hm : 3 * m <= lm_n L.

Let sa := hst L ca xa pt ha.
Let sc := hst L cc xc pt hc.

(** Tape bit of the hidden party that explains the output of [a], for a state [s] of the hidden
    party. *)
Definition need (s : vec) (i k x p : nat) : bool :=
  xorb (ha p) (andf (sa i (gin1 k x)) (sa i (gin2 k x)) (s (gin1 k x)) (s (gin2 k x)) (ta p) false).

Definition sends (s : vec) (i k x p : nat) : bool :=
  andf (s (gin1 k x)) (s (gin2 k x)) (sc i (gin1 k x)) (sc i (gin2 k x)) (need s i k x p) (tc p).

Fixpoint hid_upto (i : nat) : vec :=
  match i with
  | O => fun _ => false
  | S i' => fun p =>
      if p <? 3 * m * i' then hid_upto i' p
      else let q := p - 3 * m * i' in
           sends (hst L ch xh pt (hid_upto i') i') i' (q / 3) (q mod 3) p
  end.

Definition hid : vec := hid_upto R.
Definition hid_tape (p : nat) : bool :=
  let i := p / (3 * m) in
  let q := p mod (3 * m) in
  need (hst L ch xh pt hid i) i (q / 3) (q mod 3) p.

Lemma hid_upto_mono j i p : i <= j -> p < 3 * m * i -> hid_upto j p = hid_upto i p.
Proof.
  intros Hij Hp. induction Hij as [|j Hij IH]; [reflexivity|].
  cbn [hid_upto]. replace (p <? 3 * m * j) with true; [exact IH|].
  symmetry. apply Nat.ltb_lt. nia.
Qed.

Lemma need_ext s s' i k x p : k < m -> veq (lm_n L) s s' -> need s i k x p = need s' i k x p.
Proof. intros Hk H. destruct (gin_lt k x m Hk). unfold need. rewrite !H by lia. reflexivity. Qed.

Lemma sends_ext s s' i k x p : k < m -> veq (lm_n L) s s' -> sends s i k x p = sends s' i k x p.
Proof.
  intros Hk H. unfold sends. rewrite (need_ext s s' i k x p Hk H).
  destruct (gin_lt k x m Hk). rewrite !H by lia. reflexivity.
Qed.

Lemma hid_state i : i <= R -> veq (lm_n L) (hst L ch xh pt (hid_upto i) i) (hst L ch xh pt hid i).
Proof.
  intros Hi. apply hst_ext; auto; try (intros q Hq; reflexivity).
  intros p Hp. symmetry. apply hid_upto_mono; auto.
Qed.

Lemma hid_at i k x : i < R -> k < m -> x < 3 ->
  hid (gpos m i k x) = sends (hst L ch xh pt hid i) i k x (gpos m i k x).
Proof.
  intros Hi Hk Hx. unfold hid. rewrite (hid_upto_mono R (S i)) by (try apply gpos_lt; lia).
  cbn [hid_upto]. replace (gpos m i k x <? 3 * m * i) with false by (unfold gpos; lia).
  replace (gpos m i k x - 3 * m * i) with (3 * k + x) by (unfold gpos; lia).
  destruct (mod3_cases k x Hx) as [-> ->]. apply sends_ext; auto. apply hid_state. lia.
Qed.

Lemma hid_tape_at i k x : i < R -> k < m -> x < 3 ->
  hid_tape (gpos m i k x) = need (hst L ch xh pt hid i) i k x (gpos m i k x).
Proof.
  intros Hi Hk Hx. unfold hid_tape.
  assert (Hd : gpos m i k x / (3 * m) = i)
    by (symmetry; apply (Nat.div_unique _ _ i (3 * k + x)); unfold gpos; lia).
  assert (Hr : gpos m i k x mod (3 * m) = 3 * k + x)
    by (symmetry; apply (Nat.mod_unique _ _ i (3 * k + x)); unfold gpos; lia).
  rewrite Hd, Hr. destruct (mod3_cases k x Hx) as [-> ->]. reflexivity.
Qed.

Lemma hid_gates_a : gates L sa (hst L ch xh pt hid) ha ta hid_tape.
Proof.
  intros i k x Hi Hk Hx. cbv zeta. fold m. rewrite hid_tape_at by auto.
  unfold need, andf. btauto.
Qed.

Lemma hid_gates_h : gates L (hst L ch xh pt hid) sc hid hid_tape tc.
Proof.
  intros i k x Hi Hk Hx. cbv zeta. fold m. rewrite hid_at at 1 by auto.
  rewrite hid_tape_at by auto. reflexivity.
Qed.

Lemma hid_unique g t :
  gates L sa (hst L ch xh pt g) ha ta t -> gates L (hst L ch xh pt g) sc g t tc ->
  forall p, p < 3 * m * R -> g p = hid p /\ t p = hid_tape p.
Proof.
  intros Ga Gh.
  assert (H : forall i, i <= R -> forall p, p < 3 * m * i -> g p = hid p /\ t p = hid_tape p).
  { induction i as [|i IH]; intros Hi p Hp; [lia|].
    destruct (gpos_split _ _ _ Hp) as [Hp'|(k & y & Hk & Hy & ->)]; [apply IH; auto; lia|].
    assert (He : veq (lm_n L) (hst L ch xh pt g i) (hst L ch xh pt hid i)).
    { apply hst_ext; auto; try (intros q Hq; reflexivity). intros q Hq. apply IH; auto. lia. }
    pose proof (Ga i k y Hi Hk Hy) as G1. pose proof (Gh i k y Hi Hk Hy) as G2. cbv zeta in G1, G2.
    fold m in G1, G2.
    assert (Ht : t (gpos m i k y) = need (hst L ch xh pt hid i) i k y (gpos m i k y)).
    { rewrite <- (need_ext _ _ i k y (gpos m i k y) Hk He). unfold need. rewrite G1.
      unfold andf. btauto. }
    rewrite hid_at, hid_tape_at by auto. split; [|exact Ht].
    rewrite G2, Ht, <- (sends_ext _ _ i k y (gpos m i k y) Hk He). unfold sends.
    rewrite (need_ext _ _ i k y (gpos m i k y) Hk He). reflexivity. }
  apply H; auto.
Qed.
End Bits.

(** ** The code *)
Lemma tget_tset {A} (t : tri A) h j x : h < 3 -> j < 3 ->
  tget (tset t h x) j = if j =? h then x else tget t j.
Proof.
  intros Hh Hj. destruct t as [[a b] c].
  destruct (lt3 h Hh) as [-> | [-> | ->]], (lt3 j Hj) as [-> | [-> | ->]]; reflexivity.
Qed.

Section Z.
Variable E : env.
Variable P : paramset.

Let n := stateSizeBits P.
Let sB := stateSizeBytes P.
Let aB := andSizeBytes P.
Let W := stateSizeWords P.
Let m := numSboxes P.
Let R := numRounds P.
Let L := lowmc_of E P.

Hypothesis HP1 : wfP1 P.
Let HP : wfP P := w1_wfP P HP1.

Lemma nxt_ne j : j < 3 -> nxt j <> j.
Proof. intros Hj. destruct (lt3 j Hj) as [-> | [-> | ->]]; discriminate. Qed.
Lemma nxt_prv j : j < 3 -> nxt (prv j) = j.
Proof. intros Hj. destruct (lt3 j Hj) as [-> | [-> | ->]]; reflexivity. Qed.
Lemma prv_ne j : j < 3 -> prv j <> j.
Proof. intros Hj. destruct (lt3 j Hj) as [-> | [-> | ->]]; discriminate. Qed.
Lemma prv_nxt_ne j : j < 3 -> prv j <> nxt j.
Proof. intros Hj. destruct (lt3 j Hj) as [-> | [-> | ->]]; discriminate. Qed.

(** The tape and the view of party [h] that explain the input share [b]. *)
Definition alt_tape (ins tapes : nat -> bytes) (pt : bytes) (vs : tri view) (h : nat) (b : bytes) : bytes :=
  pack aB (hid_tape L (bit pt) (cst (prv h)) (cst h) (cst (nxt h)) (bit (ins (prv h))) (bit b)
             (bit (ins (nxt h))) (bit (v_communicatedBits (tget vs (prv h))))
             (bit (v_communicatedBits (tget vs (nxt h)))) (bit (tapes (prv h))) (bit (tapes (nxt h)))).

Definition alt_hid (ins tapes : nat -> bytes) (pt : bytes) (vs : tri view) (h : nat) (b : bytes) : vec :=
  hid L (bit pt) (cst (prv h)) (cst h) (cst (nxt h)) (bit (ins (prv h))) (bit b)
             (bit (ins (nxt h))) (bit (v_communicatedBits (tget vs (prv h))))
             (bit (v_communicatedBits (tget vs (nxt h)))) (bit (tapes (prv h))) (bit (tapes (nxt h))).

Definition alt_view (ins tapes : nat -> bytes) (pt : bytes) (vs : tri view) (h : nat) (b : bytes) : view :=
  let c := pack aB (fun p => (p <? 3 * m * R) && alt_hid ins tapes pt vs h b p) in
  mkView b c (pack sB (fun i => (i <? n) && hst L (cst h) (bit b) (bit pt) (bit c) R i)).

Definition upd {A} (f : nat -> A) (h : nat) (x : A) (j : nat) : A := if j =? h then x else f j.

Lemma upd_same {A} (f : nat -> A) h x : upd f h x h = x.
Proof. unfold upd. rewrite Nat.eqb_refl. auto. Qed.
Lemma upd_other {A} (f : nat -> A) h x j : j <> h -> upd f h x j = f j.
Proof. intros H. unfold upd. apply Nat.eqb_neq in H. rewrite H. auto. Qed.

Lemma alt_views ins tapes pt vs h b : h < 3 -> in_wf P b ->
  mpc_views E P ins tapes pt vs ->
  mpc_views E P (upd ins h b) (upd tapes h (alt_tape ins tapes pt vs h b)) pt
            (tset vs h (alt_view ins tapes pt vs h b)).
Proof.
  intros Hh Hb H.
  pose proof (wf_m P HP) as Hmn. pose proof (aB_bits P HP1) as HaB. pose proof (sB_bits P HP1) as HsB.
  fold n m in Hmn. fold m R aB in HaB. fold n sB in HsB.
  set (T := alt_tape ins tapes pt vs h b). set (V := alt_view ins tapes pt vs h b).
  set (hd := alt_hid ins tapes pt vs h b).
  set (c := v_communicatedBits V).
  assert (Hc : forall p, bit c p = (p <? 3 * m * R) && hd p).
  { intros p. unfold c, V, alt_view. cbn [v_communicatedBits].
    destruct (pack_spec aB (fun p => (p <? 3 * m * R) && alt_hid ins tapes pt vs h b p)) as (_ & _ & ->).
    fold hd. destruct (Nat.ltb_spec p (8 * aB)); auto.
    replace (p <? 3 * m * R) with false; auto. symmetry. apply Nat.ltb_ge. lia. }
  assert (Hst : forall i, i <= R -> veq n (hst L (cst h) (bit b) (bit pt) hd i)
                                         (hst L (cst h) (bit b) (bit pt) (bit c) i)).
  { intros i Hi. apply (hst_ext L); auto; try (intros q Hq; reflexivity).
    intros p Hp. rewrite Hc. replace (p <? 3 * m * R) with true; auto. symmetry. apply Nat.ltb_lt.
    change (lm_m L) with m in Hp. nia. }
  assert (HT : forall p, p < 3 * m * R -> bit T p =
    hid_tape L (bit pt) (cst (prv h)) (cst h) (cst (nxt h)) (bit (ins (prv h))) (bit b)
             (bit (ins (nxt h))) (bit (v_communicatedBits (tget vs (prv h))))
             (bit (v_communicatedBits (tget vs (nxt h)))) (bit (tapes (prv h))) (bit (tapes (nxt h))) p).
  { intros p Hp. unfold T, alt_tape.
    match goal with |- bit (pack aB ?f) p = _ => destruct (pack_spec aB f) as (_ & _ & ->) end.
    replace (p <? 8 * aB) with true; auto. symmetry. apply Nat.ltb_lt. lia. }
  pose proof (nxt_lt h) as Hn. pose proof (prv_lt h) as Hp.
  pose proof (nxt_ne h Hh) as Hne. pose proof (prv_ne h Hh) as Hpe. pose proof (nxt_prv h Hh) as Hnp.
  intros j Hj. rewrite !tget_tset by (auto; apply nxt_lt).
  destruct (Nat.eqb_spec j h) as [->|Hjh].
  - (* the hidden party *)
    rewrite upd_same. replace (nxt h =? h) with false by lia. rewrite (upd_other ins _ _ (nxt h)), (upd_other tapes _ _ (nxt h)), upd_same by auto.
    split; [reflexivity|].
    destruct (pack_spec aB (fun p => (p <? 3 * m * R) && hd p)) as (Lc & Bc & _).
    split; [exact Lc|]. split; [exact Bc|]. fold c. split.
    { intros p Hp'. rewrite Hc. change (numSboxes P) with m in Hp'. change (numRounds P) with R in Hp'.
      replace (p <? 3 * m * R) with false; auto. symmetry. apply Nat.ltb_ge. auto. }
    split.
    { unfold V, alt_view. cbn [v_outputShare].
      match goal with |- out_share P (pack sB ?f) _ => destruct (pack_spec sB f) as (Lo & Bo & Oo) end.
      split; [exact Lo|]. split; [exact Bo|]. intros i. rewrite Oo. fold n.
      destruct (Nat.ltb_spec i (8 * sB)), (Nat.ltb_spec i n); try lia; auto. }
    eapply (gates_ext L); [exact Hmn| | | |apply (hid_gates_h L (bit pt) (cst (prv h)) (cst h) (cst (nxt h))
       (bit (ins (prv h))) (bit b) (bit (ins (nxt h))) (bit (v_communicatedBits (tget vs (prv h))))
       (bit (v_communicatedBits (tget vs (nxt h)))) (bit (tapes (prv h))) (bit (tapes (nxt h))) Hmn)].
    + intros i Hi. apply Hst. change (lm_r L) with R in Hi. lia.
    + intros i Hi q Hq. reflexivity.
    + intros p Hp'. change (lm_r L) with R in Hp'. change (lm_m L) with m in Hp'.
      split; [|split; [symmetry; apply HT; auto|reflexivity]].
      rewrite Hc. replace (p <? 3 * m * R) with true; auto. symmetry. apply Nat.ltb_lt. auto.
  - destruct (H j Hj) as (H1 & H2 & H3 & H4 & H5 & H6).
    rewrite (upd_other ins _ _ j), (upd_other tapes _ _ j) by auto.
    split; [auto|]. split; [auto|]. split; [auto|]. split; [auto|]. split; [exact H5|].
    destruct (Nat.eqb_spec (nxt j) h) as [Hjn|Hjn].
    + assert (j = prv h) as -> by (subst h; destruct (lt3 j Hj) as [-> | [-> | ->]]; reflexivity).
      rewrite Hnp, !upd_same.
      eapply (gates_ext L); [exact Hmn| | | |apply (hid_gates_a L (bit pt) (cst (prv h)) (cst h) (cst (nxt h))
       (bit (ins (prv h))) (bit b) (bit (ins (nxt h))) (bit (v_communicatedBits (tget vs (prv h))))
       (bit (v_communicatedBits (tget vs (nxt h)))) (bit (tapes (prv h))) (bit (tapes (nxt h))) Hmn)].
      * intros i Hi q Hq. reflexivity.
      * intros i Hi. apply Hst. change (lm_r L) with R in Hi. lia.
      * intros p Hp'. change (lm_r L) with R in Hp'. change (lm_m L) with m in Hp'.
        split; [reflexivity|]. split; [reflexivity|]. symmetry. apply HT; auto.
    + rewrite (upd_other ins _ _ (nxt j)), (upd_other tapes _ _ (nxt j)) by auto. exact H6.
Qed.

(** Two tapes of [h] that give the same views of the others agree where they are used. *)
Lemma alt_unique ins t1 t2 pt vs1 vs2 h :
  h < 3 ->
  mpc_views E P ins t1 pt vs1 -> mpc_views E P ins t2 pt vs2 ->
  (forall j, j < 3 -> j <> h -> tget vs1 j = tget vs2 j /\ t1 j = t2 j) ->
  forall p, p < 3 * m * R -> bit (t1 h) p = bit (t2 h) p.
Proof.
  intros Hh H1 H2 Hj p Hp'. pose proof (wf_m P HP) as Hmn.
  pose proof (nxt_lt h) as Hn. pose proof (prv_lt h) as Hp.
  pose proof (nxt_ne h Hh) as Hne. pose proof (prv_ne h Hh) as Hpe. pose proof (nxt_prv h Hh) as Hnp.
  destruct (Hj _ Hn Hne) as [En Tn]. destruct (Hj _ Hp Hpe) as [Ep Tp].
  destruct (H1 h Hh) as (_ & _ & _ & _ & _ & G1h). destruct (H1 (prv h) Hp) as (_ & _ & _ & _ & _ & G1a).
  destruct (H2 h Hh) as (_ & _ & _ & _ & _ & G2h). destruct (H2 (prv h) Hp) as (_ & _ & _ & _ & _ & G2a).
  rewrite Hnp in *. rewrite En, Tn in G1h. rewrite Ep, Tp in G1a.
  destruct (hid_unique L (bit pt) (cst (prv h)) (cst h) (cst (nxt h)) (bit (ins (prv h))) (bit (ins h))
    (bit (ins (nxt h))) _ _ _ _ Hmn _ _ G1a G1h p Hp') as [_ ->].
  destruct (hid_unique L (bit pt) (cst (prv h)) (cst h) (cst (nxt h)) (bit (ins (prv h))) (bit (ins h))
    (bit (ins (nxt h))) _ _ _ _ Hmn _ _ G2a G2h p Hp') as [_ ->].
  reflexivity.
Qed.

(** The output shares sum to the encryption under the sum of the input shares. *)
Lemma views_sum ins tapes pt vs i :
  mpc_views E P ins tapes pt vs -> i < n ->
  xorb (xorb (bit (v_outputShare (tget vs 0)) i) (bit (v_outputShare (tget vs 1)) i))
       (bit (v_outputShare (tget vs 2)) i) =
  lowmc_enc L (fun j => xorb (xorb (bit (ins 0) j) (bit (ins 1) j)) (bit (ins 2) j)) (bit pt) i.
Proof.
  intros Hv Hi.
  destruct (Hv 0 ltac:(lia)) as (_ & _ & _ & _ & (L0 & _ & O0) & G0).
  destruct (Hv 1 ltac:(lia)) as (_ & _ & _ & _ & (L1 & _ & O1) & G1).
  destruct (Hv 2 ltac:(lia)) as (_ & _ & _ & _ & (L2 & _ & O2) & G2).
  rewrite O0, O1, O2.
  replace (i <? stateSizeBits P) with true by (symmetry; apply Nat.ltb_lt; auto).
  apply (gates3_correct L (bit pt) (bit (ins 0)) (bit (ins 1)) (bit (ins 2)) _ _ _ _ _ _
             (wf_m P HP) G0 G1 G2 i Hi).
Qed.
End Z.

Lemma share_ext (P : paramset) o1 o2 s1 s2 : out_share P o1 s1 -> out_share P o2 s2 ->
  (forall i, i < stateSizeBits P -> bit o1 i = bit o2 i) -> o1 = o2.
Proof.
  intros (L1 & B1 & O1) (L2 & B2 & O2) H. apply bits_ext; auto; [congruence|].
  intros i _. destruct (Nat.lt_ge_cases i (stateSizeBits P)); [auto|].
  rewrite O1, O2. replace (i <? stateSizeBits P) with false by lia. auto.
Qed.

Lemma C43_pf E P p (tb : tri bytes) i0 i1 i2 pt slab h b :
  get_param_set p = Some P -> is_picnic3 p = false -> env_bytes_ok E -> constants_ok E P ->
  length pt = 32 -> bytes_ok pt ->
  (forall x, In x [i0; i1; i2; b] -> length x = stateSizeBytes P /\ bytes_ok x) ->
  (forall j, j < 3 -> andSizeBytes P <= length (tget tb j)) ->
  24 * stateSizeWords P <= slab -> h < 3 ->
  let v x := mkView x (zeros (andSizeBytes P)) (zeros (stateSizeBytes P)) in
  let run t x := mpc_LowMC E P (tset tb h t) (tset (v i0, v i1, v i2) h (v x)) pt slab in
  exists ws t ws',
    mpc_LowMC E P tb (v i0, v i1, v i2) pt slab = Ok ws /\
    length t = andSizeBytes P /\ bytes_ok t /\ run t b = Ok ws' /\
    (forall j, j < 3 -> j <> h -> tget ws' j = tget ws j) /\
    (forall t2 ws2, andSizeBytes P <= length t2 -> run t2 b = Ok ws2 ->
       (forall j, j < 3 -> j <> h -> tget ws2 j = tget ws j) ->
       forall q, q < 3 * numSboxes P * numRounds P -> bit t2 q = bit t q) /\
    ((forall i, i < stateSizeBits P ->
        lowmc_enc (lowmc_of E P) (shared_key ws') (bit pt) i = lowmc_enc (lowmc_of E P) (shared_key ws) (bit pt) i) ->
     v_outputShare (tget ws' h) = v_outputShare (tget ws h)).
Proof.
  intros HP H3 HE HC Lpt Bpt Hin Htb Hsl Hh v run. pose proof (get_param_set_wfP1 _ _ HP H3) as HP1.
  pose proof (w1_wfP P HP1) as Hw.
  set (ins := fun j => match j with 0 => i0 | 1 => i1 | _ => i2 end).
  set (tapes := fun j => firstn (andSizeBytes P) (tget tb j)).
  assert (A2 : arr pt) by (split; auto). destruct (arr_len P HP1 _ A2) as [_ Hptl].
  assert (Hi : forall j, j < 3 -> in_wf P (ins j)).
  { intros j Hj. destruct (lt3 j Hj) as [-> | [-> | ->]]; cbn [ins]; split; apply Hin; simpl; auto. }
  assert (Hb : in_wf P b) by (split; apply Hin; simpl; auto).
  assert (Htl : forall j, j < 3 -> length (tapes j) = andSizeBytes P).
  { intros j Hj. unfold tapes. rewrite firstn_length. specialize (Htb j Hj). lia. }
  pose proof (aB_bits P HP1) as Hab.
  assert (Htis : forall t, andSizeBytes P <= length t -> tape_is P t (firstn (andSizeBytes P) t)).
  { intros t Ht. split; [lia|]. intros q Hq. rewrite bit_firstn; auto. lia. }
  (* runs in general *)
  assert (Hrun : forall ins' tapes' tb' vv, (forall j, j < 3 -> in_wf P (ins' j)) ->
    (forall j, j < 3 -> length (tapes' j) = andSizeBytes P) ->
    (forall j, j < 3 -> tape_is P (tget tb' j) (tapes' j)) ->
    vv = (v (ins' 0), v (ins' 1), v (ins' 2)) ->
    exists ws, mpc_LowMC E P tb' vv pt slab = Ok ws /\ mpc_views E P ins' tapes' pt ws).
  { intros ins' tapes' tb' vv A B C ->. exists (views_of E P ins' tapes' pt). split.
    - apply (mpc_LowMC_eq E P HP1 HE HC); auto.
    - apply views_of_spec; auto. }
  destruct (Hrun ins tapes tb (v i0, v i1, v i2) Hi Htl) as (ws & Ews & Hws); [|reflexivity|].
  { intros j Hj. apply Htis. auto. }
  set (t := alt_tape E P ins tapes pt ws h b).
  assert (Htlen : length t = andSizeBytes P /\ bytes_ok t).
  { unfold t, alt_tape. match goal with |- context [pack ?k ?f] => destruct (pack_spec k f) as (A & B & _) end.
    split; auto. }
  assert (Hins' : forall j, j < 3 -> in_wf P (upd ins h b j)).
  { intros j Hj. unfold upd. destruct (j =? h); auto. }
  assert (Hvv : tset (v i0, v i1, v i2) h (v b) = (v (upd ins h b 0), v (upd ins h b 1), v (upd ins h b 2))).
  { destruct (lt3 h Hh) as [-> | [-> | ->]]; reflexivity. }
  assert (Hrun2 : forall t2, andSizeBytes P <= length t2 ->
    exists ws2, run t2 b = Ok ws2 /\
      mpc_views E P (upd ins h b) (upd tapes h (firstn (andSizeBytes P) t2)) pt ws2).
  { intros t2 Ht2. apply Hrun; auto.
    - intros j Hj. unfold upd. destruct (j =? h); auto. rewrite firstn_length. lia.
    - intros j Hj. rewrite tget_tset by auto. unfold upd. destruct (j =? h); [apply Htis; auto|].
      apply Htis. auto. }
  destruct (Hrun2 t) as (ws' & Ews' & Hws'); [lia|].
  rewrite firstn_all2 in Hws' by lia.
  pose proof (alt_views E P HP1 ins tapes pt ws h b Hh Hb Hws) as Halt. fold t in Halt.
  assert (Heq : ws' = tset ws h (alt_view E P ins tapes pt ws h b)).
  { eapply (mpc_views_unique E P HP1); [|exact Hws'|exact Halt]. intros i Hi'. reflexivity. }
  assert (Hoth : forall j, j < 3 -> j <> h -> tget ws' j = tget ws j).
  { intros j Hj Hjh. rewrite Heq, tget_tset by auto. apply Nat.eqb_neq in Hjh. rewrite Hjh. auto. }
  exists ws, t, ws'. split; [exact Ews|]. split; [apply Htlen|]. split; [apply Htlen|]. split; [exact Ews'|].
  split; [exact Hoth|]. split.
  - intros t2 ws2 Ht2 E2 O2 q Hq. destruct (Hrun2 t2 Ht2) as (ws2' & E2' & Hws2).
    rewrite E2 in E2'. injection E2' as <-.
    pose proof (alt_unique E P HP1 _ _ _ _ _ _ h Hh Hws2 Hws') as Hu.
    rewrite !upd_same in Hu. rewrite <- Hu; auto.
    + rewrite bit_firstn; auto. lia.
    + intros j Hj Hjh. rewrite !upd_other by auto. rewrite O2, Hoth by auto. auto.
  - intros Hsum. destruct (Hws h Hh) as (_ & _ & _ & _ & S1 & _).
    destruct (Hws' h Hh) as (_ & _ & _ & _ & S2 & _).
    eapply share_ext; [exact S2|exact S1|]. intros i Hi'.
    assert (Hs1 : forall j, j < 3 -> v_inputShare (tget ws j) = ins j) by (intros j Hj; apply (Hws j Hj)).
    assert (Hs2 : forall j, j < 3 -> v_inputShare (tget ws' j) = upd ins h b j) by (intros j Hj; apply (Hws' j Hj)).
    specialize (Hsum i Hi'). unfold shared_key in Hsum. rewrite !Hs1, !Hs2 in Hsum by lia.
    rewrite <- (views_sum E P HP1 _ _ _ _ i Hws' Hi'), <- (views_sum E P HP1 _ _ _ _ i Hws Hi') in Hsum.
    destruct (lt3 h Hh) as [-> | [-> | ->]].
    + rewrite (Hoth 1), (Hoth 2) in Hsum by lia.
      destruct (bit _ i), (bit _ i), (bit _ i), (bit _ i); try reflexivity; discriminate.
    + rewrite (Hoth 0), (Hoth 2) in Hsum by lia.
      destruct (bit _ i), (bit _ i), (bit _ i), (bit _ i); try reflexivity; discriminate.
    + rewrite (Hoth 0), (Hoth 1) in Hsum by lia.
      destruct (bit _ i), (bit _ i), (bit _ i), (bit _ i); try reflexivity; discriminate.
Qed.
