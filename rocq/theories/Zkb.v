(** ZKB++ rounds of the signer and the verifier in terms of the pure content of a round. *)

From Coq Require Import List NArith Arith Bool Btauto Lia ZifyBool ZifyNat ZifyN.
From Verif Require Import Base Params Env Spec LowMC Picnic1 BaseFacts ParamFacts LowMCFacts
  LowMCInj Hint ZkbMpc.
Import ListNotations.

Lemma copy_ok dst src off len :
  off + len <= length src -> len <= length dst ->
  copy dst src off len = Ok (blit_list dst 0 (firstn len (skipn off src))).
Proof.
  intros H1 H2. unfold copy. rewrite slice_ok by auto. cbn [bind].
  apply blit_ok. rewrite length_slice; auto.
Qed.

Lemma copy_all dst src off len :
  off + len <= length src -> len = length dst ->
  copy dst src off len = Ok (firstn len (skipn off src)).
Proof.
  intros H1 H2. unfold copy. rewrite slice_ok by auto. cbn [bind].
  apply blit0_all. rewrite length_slice; auto.
Qed.

Lemma firstn_firstn_le {A} (l : list A) a b : a <= b -> firstn a (firstn b l) = firstn a l.
Proof. intros H. rewrite firstn_firstn. f_equal. lia. Qed.

Lemma firstn_skipn_prefix {A} (b p : list A) off len :
  firstn (off + len) b = p -> firstn len (skipn off b) = skipn off p.
Proof. intros <-. rewrite skipn_firstn_comm. f_equal. lia. Qed.

Lemma bit_blit0_lo b src i :
  length src <= length b -> i < 8 * length src -> bit (blit_list b 0 src) i = bit src i.
Proof.
  intros H1 H2. rewrite bit_blit0 by auto. replace (i <? 8 * length src) with true by lia. auto.
Qed.

Lemma length_blit0 {A} (b src : list A) : length src <= length b -> length (blit_list b 0 src) = length b.
Proof. intros. apply length_blit_list. lia. Qed.

Section Z.
Variable E : env.
Variable P : paramset.

Let n := stateSizeBits P.
Let sB := stateSizeBytes P.
Let aB := andSizeBytes P.
Let W := stateSizeWords P.
Let m := numSboxes P.
Let R := numRounds P.
Let L := lowmc_of E P.

(** ** Pure content *)

(** Tape length of party [j]. *)
Definition party_len (j : nat) : nat := if j <? 2 then sB + aB else aB.

(** Expansion of the seed of party [j] in round [k]. *)
Definition party_bytes (seed salt : bytes) (k j : nat) : bytes :=
  hash E P HASH_PREFIX_NONE
       [hash E P HASH_PREFIX_2 [seed] (digestSizeBytes P); salt; intLE k; intLE j;
        intLE (party_len j)] (party_len j).

Definition clear_tail (b : bytes) : bytes :=
  match zeroTrailingBits b n with Ok d => d | _ => b end.

Definition party_in (seed salt : bytes) (k j : nat) : bytes :=
  clear_tail (firstn sB (party_bytes seed salt k j)).
Definition party_tape (seed salt : bytes) (k j : nat) : bytes :=
  if j <? 2 then skipn sB (party_bytes seed salt k j) else party_bytes seed salt k j.

Definition commit_val (seed : bytes) (v : view) : bytes :=
  hash E P HASH_PREFIX_0
       [hash E P HASH_PREFIX_4 [seed] (digestSizeBytes P);
        v_inputShare v; v_communicatedBits v; v_outputShare v] (digestSizeBytes P).

Definition G_len (j : nat) : nat := seedSizeBytes P + aB + (if j =? 2 then sB else 0).

Definition G_val (j : nat) (seed : bytes) (v : view) : bytes :=
  hash E P HASH_PREFIX_NONE
       [hash E P HASH_PREFIX_5 [seed] (digestSizeBytes P);
        (if j =? 2 then v_inputShare v else []); v_communicatedBits v; intLE (G_len j)] (G_len j).

(** Views produced by the signer from inputs and tapes. *)
Definition mpc_views (ins tapes : nat -> bytes) (pt : bytes) (vs : tri view) : Prop :=
  let st := fun j => hst L (cst j) (bit (ins j)) (bit pt)
                         (bit (v_communicatedBits (tget vs j))) in
  forall j, j < 3 ->
    v_inputShare (tget vs j) = ins j /\
    length (v_communicatedBits (tget vs j)) = aB /\
    bytes_ok (v_communicatedBits (tget vs j)) /\
    (forall p, 3 * m * R <= p -> bit (v_communicatedBits (tget vs j)) p = false) /\
    out_share P (v_outputShare (tget vs j)) (st j R) /\
    gates L (st j) (st (nxt j)) (bit (v_communicatedBits (tget vs j)))
          (bit (tapes j)) (bit (tapes (nxt j))).

(** Views recomputed by the verifier for challenge [ch]. *)
Definition ver_views (ch : nat) (in1 in2 tape1 tape2 comm2 pt : bytes) (w1 w2 : view) : Prop :=
  let s1 := hst L (ch =? 0) (bit in1) (bit pt) (bit (v_communicatedBits w1)) in
  let s2 := hst L (ch =? 2) (bit in2) (bit pt) (bit comm2) in
  v_inputShare w1 = in1 /\ v_inputShare w2 = in2 /\ v_communicatedBits w2 = comm2 /\
  length (v_communicatedBits w1) = aB /\ bytes_ok (v_communicatedBits w1) /\
  (forall p, 3 * m * R <= p -> bit (v_communicatedBits w1) p = false) /\
  out_share P (v_outputShare w1) (s1 R) /\ out_share P (v_outputShare w2) (s2 R) /\
  gates L s1 s2 (bit (v_communicatedBits w1)) (bit tape1) (bit tape2).

Hypothesis HP1 : wfP1 P.
Let HP : wfP P := w1_wfP P HP1.

Lemma aB_bits : 3 * m * R <= 8 * aB.
Proof. unfold aB. rewrite (wf_aB P HP). apply numBytes_spec. Qed.

Lemma sB_bits : n <= 8 * sB < n + 8.
Proof. unfold sB. rewrite (wf_sB P HP). apply numBytes_spec. Qed.

Lemma out_share_unique o o' s s' :
  out_share P o s -> out_share P o' s' -> veq n s s' -> o = o'.
Proof.
  intros (Hl & Hb & H) (Hl' & Hb' & H') Hs. apply bits_ext; auto; [congruence|].
  intros i Hi. rewrite H, H'. fold n. destruct (Nat.ltb_spec i n); auto.
Qed.

Lemma comm_unique c c' :
  length c = aB -> length c' = aB -> bytes_ok c -> bytes_ok c' ->
  (forall p, 3 * m * R <= p -> bit c p = false) ->
  (forall p, 3 * m * R <= p -> bit c' p = false) ->
  (forall p, p < 3 * m * R -> bit c p = bit c' p) -> c = c'.
Proof.
  intros Hl Hl' Hb Hb' Hz Hz' H. apply bits_ext; auto; [congruence|].
  intros i Hi. destruct (Nat.lt_ge_cases i (3 * m * R)); auto. rewrite Hz, Hz' by auto. auto.
Qed.

Lemma mpc_views_unique ins tapes pt pt' vs vs' :
  veq n (bit pt) (bit pt') ->
  mpc_views ins tapes pt vs -> mpc_views ins tapes pt' vs' -> vs = vs'.
Proof.
  intros Hpt H H'. pose proof (wf_m P HP) as Hmn.
  assert (Hst : forall c key h i, veq n (hst L c key (bit pt') h i) (hst L c key (bit pt) h i)).
  { intros. apply (hst_ext L); auto; intros j Hj; try reflexivity. symmetry. apply Hpt. auto. }
  assert (Hu : forall p, p < 3 * m * R -> forall j, j < 3 ->
            bit (v_communicatedBits (tget vs j)) p = bit (v_communicatedBits (tget vs' j)) p).
  { intros p Hp.
    destruct (H 0 ltac:(lia)) as (_ & _ & _ & _ & _ & G0).
    destruct (H 1 ltac:(lia)) as (_ & _ & _ & _ & _ & G1).
    destruct (H 2 ltac:(lia)) as (_ & _ & _ & _ & _ & G2).
    destruct (H' 0 ltac:(lia)) as (_ & _ & _ & _ & _ & G0').
    destruct (H' 1 ltac:(lia)) as (_ & _ & _ & _ & _ & G1').
    destruct (H' 2 ltac:(lia)) as (_ & _ & _ & _ & _ & G2').
    change (nxt 0) with 1 in *. change (nxt 1) with 2 in *. change (nxt 2) with 0 in *.
    change (cst 0) with true in *. change (cst 1) with false in *. change (cst 2) with false in *.
    assert (Hg : forall c c' key key' h h' t t',
       gates L (hst L c key (bit pt') h) (hst L c' key' (bit pt') h') h t t' ->
       gates L (hst L c key (bit pt) h) (hst L c' key' (bit pt) h') h t t').
    { intros. eapply gates_ext; [exact Hmn| | | |eassumption]; intros; auto; apply Hst. }
    apply Hg in G0'. apply Hg in G1'. apply Hg in G2'.
    destruct (gates3_unique L _ _ _ _ _ _ _ _ _ _ _ _ _ Hmn G0 G1 G2 G0' G1' G2' p Hp)
      as (E0 & E1 & E2).
    intros j Hj. destruct (lt3 j Hj) as [-> | [-> | ->]]; auto. }
  assert (Hc : forall j, j < 3 ->
            v_communicatedBits (tget vs j) = v_communicatedBits (tget vs' j)).
  { intros j Hj. destruct (H j Hj) as (_ & Hl & Hb & Hz & _).
    destruct (H' j Hj) as (_ & Hl' & Hb' & Hz' & _). apply comm_unique; auto. }
  apply tri_ext. intros j Hj.
  destruct (H j Hj) as (Hi & _ & _ & _ & Ho & _). destruct (H' j Hj) as (Hi' & _ & _ & _ & Ho' & _).
  pose proof (Hc j Hj) as Hcj. cbv beta zeta in Ho, Ho'. rewrite Hcj in Ho.
  assert (Hout : v_outputShare (tget vs j) = v_outputShare (tget vs' j)).
  { eapply out_share_unique; [exact Ho|exact Ho'|]. intros i Hii. symmetry. apply Hst. auto. }
  destruct (tget vs j), (tget vs' j). simpl in *. congruence.
Qed.

Lemma ver_views_unique ch in1 in2 t1 t2 comm2 pt pt' w1 w2 w1' w2' :
  veq n (bit pt) (bit pt') ->
  ver_views ch in1 in2 t1 t2 comm2 pt w1 w2 ->
  ver_views ch in1 in2 t1 t2 comm2 pt' w1' w2' -> w1 = w1' /\ w2 = w2'.
Proof.
  intros Hpt (I1 & I2 & C2 & Cl & Cb & Cz & O1 & O2 & G) (I1' & I2' & C2' & Cl' & Cb' & Cz' & O1' & O2' & G').
  pose proof (wf_m P HP) as Hmn.
  assert (Hst : forall c key h i, veq n (hst L c key (bit pt') h i) (hst L c key (bit pt) h i)).
  { intros. apply (hst_ext L); auto; intros j Hj; try reflexivity. symmetry. apply Hpt. auto. }
  assert (Hc : v_communicatedBits w1 = v_communicatedBits w1').
  { apply comm_unique; auto. intros p Hp.
    eapply (gates_ext L) in G'; [|exact Hmn|intros i _; apply Hst|intros i _; apply Hst|
                             intros q Hq; repeat split; reflexivity].
    exact (gates2_unique L _ _ _ _ _ _ _ _ _ _ Hmn G G' p Hp). }
  cbv zeta in *. rewrite Hc in *.
  assert (Ho1 : v_outputShare w1 = v_outputShare w1').
  { eapply out_share_unique; [exact O1|exact O1'|]. intros i Hi; symmetry; apply Hst; auto. }
  assert (Ho2 : v_outputShare w2 = v_outputShare w2').
  { eapply out_share_unique; [exact O2|exact O2'|]. intros i Hi; symmetry; apply Hst; auto. }
  destruct w1, w2, w1', w2'. simpl in *. split; congruence.
Qed.

(** The verifier recomputes the views of the signer. *)
Lemma mpc_views_ver ch ins tapes pt vs :
  ch < 3 -> mpc_views ins tapes pt vs ->
  ver_views ch (ins ch) (ins (nxt ch)) (tapes ch) (tapes (nxt ch))
            (v_communicatedBits (tget vs (nxt ch))) pt (tget vs ch) (tget vs (nxt ch)).
Proof.
  intros Hch H. destruct (H ch Hch) as (I & Cl & Cb & Cz & O & G).
  destruct (H (nxt ch) (nxt_lt ch)) as (I' & Cl' & Cb' & Cz' & O' & _).
  unfold ver_views. cbv zeta in *.
  assert (H1 : cst ch = (ch =? 0)) by reflexivity.
  assert (H2 : cst (nxt ch) = (ch =? 2))
    by (destruct (lt3 ch Hch) as [-> | [-> | ->]]; reflexivity).
  rewrite H1 in *. rewrite H2 in *. auto 12.
Qed.

(** ** Helper functions of the code *)
Hypothesis HE : env_bytes_ok E.
Hypothesis HC : constants_ok E P.

Lemma hash_len p c l : length (hash E P p c l) = l.
Proof. apply HE. Qed.
Lemma hash_bytes p c l : bytes_ok (hash E P p c l).
Proof. apply HE. Qed.

Lemma clear_tail_spec b :
  length b = sB -> zeroTrailingBits b n = Ok (clear_tail b) /\ length (clear_tail b) = sB /\
  (bytes_ok b -> bytes_ok (clear_tail b)) /\
  (forall i, bit (clear_tail b) i = if i <? n then bit b i else false).
Proof.
  intros Hl.
  assert (Hn : numBytes n = sB) by (symmetry; apply (wf_sB P HP)).
  assert (Hok := zeroTrailingBits_spec b n). rewrite Hn in Hok. specialize (Hok ltac:(lia)).
  unfold clear_tail. destruct (zeroTrailingBits b n) as [d| | |]; cbn [ok] in Hok; try contradiction.
  destruct Hok as (H1 & H2 & H3). split; auto. split; [congruence|]. split; auto.
  intros i. rewrite H3. pose proof sB_bits.
  destruct (Nat.ltb_spec i n); destruct (Nat.leb_spec n i); try lia; cbn [andb]; auto.
  destruct (Nat.ltb_spec i (8 * sB)); auto. apply bit_overflow. rewrite Hl.
  apply Nat.div_le_lower_bound; lia.
Qed.

Lemma clear_tail_id b :
  length b = sB -> bytes_ok b -> (forall i, n <= i < 8 * sB -> bit b i = false) ->
  clear_tail b = b.
Proof.
  intros Hl Hb Hz. destruct (clear_tail_spec b Hl) as (_ & H1 & H2 & H3).
  apply bits_ext; auto; [congruence|]. intros i Hi. rewrite H3.
  destruct (Nat.ltb_spec i n); auto. symmetry. apply Hz. lia.
Qed.

Lemma length_party_bytes s salt k j : length (party_bytes s salt k j) = party_len j.
Proof. apply hash_len. Qed.

Lemma length_party_tape s salt k j : length (party_tape s salt k j) = aB.
Proof.
  unfold party_tape. pose proof (length_party_bytes s salt k j) as H. unfold party_len in H.
  destruct (j <? 2); auto. rewrite skipn_length. lia.
Qed.

Lemma party_in_wf s salt k j : j < 2 ->
  length (party_in s salt k j) = sB /\ bytes_ok (party_in s salt k j) /\
  (forall i, n <= i -> bit (party_in s salt k j) i = false).
Proof.
  intros Hj.
  assert (Hl : length (firstn sB (party_bytes s salt k j)) = sB).
  { rewrite firstn_length, length_party_bytes. unfold party_len.
    replace (j <? 2) with true by lia. lia. }
  destruct (clear_tail_spec _ Hl) as (_ & H1 & H2 & H3). unfold party_in.
  split; auto. split; [apply H2, Forall_firstn, hash_bytes|].
  intros i Hi. rewrite H3. replace (i <? n) with false by lia. auto.
Qed.

Lemma createRandomTape_spec seed salt k j buf :
  length seed = seedSizeBytes P -> length salt = saltSizeBytes P ->
  party_len j <= length buf ->
  ok (createRandomTape E P seed salt k j buf (party_len j)) (fun '(st, b) =>
    st = true /\ length b = length buf /\ (bytes_ok buf -> bytes_ok b) /\
    firstn (party_len j) b = party_bytes seed salt k j).
Proof.
  intros Hs Hsalt Hlen. unfold createRandomTape.
  assert (Hd : digestSizeBytes P <= party_len j).
  { pose proof (w1_tape P HP1). unfold party_len, aB, sB. destruct (j <? 2); lia. }
  replace (party_len j <? digestSizeBytes P) with false by lia.
  rewrite slice_all by auto. cbn [bind].
  rewrite blit_ok by (rewrite hash_len; lia). cbn [bind].
  rewrite slice_all by auto. cbn [bind].
  match goal with |- context [blit _ 0 ?x] => change x with (party_bytes seed salt k j) end.
  pose proof (length_party_bytes seed salt k j) as Hpl.
  rewrite blit_ok by (rewrite Hpl, length_blit0; rewrite ?hash_len; lia). cbn [bind ok].
  split; auto. split; [|split].
  - rewrite length_blit0; [|rewrite Hpl]; rewrite length_blit0; rewrite ?hash_len; lia.
  - intros Hb. apply bytes_ok_blit; [|apply hash_bytes]. apply bytes_ok_blit; auto. apply hash_bytes.
  - apply firstn_blit0. auto.
Qed.

(** [tape_is b t]: the used part of a tape buffer has the contents [t]. *)
Definition tape_is (b t : bytes) : Prop :=
  3 * m * R <= 8 * length b /\ forall p, p < 3 * m * R -> bit b p = bit t p.

Lemma tape_is_copy dst src t :
  length t = aB -> aB <= length dst -> src = t ->
  tape_is (blit_list dst 0 src) t.
Proof.
  intros Hl Hd ->. pose proof aB_bits. split.
  - rewrite length_blit0 by lia. lia.
  - intros p Hp. apply bit_blit0_lo; lia.
Qed.

Lemma tape_is_firstn b t : length t = aB -> firstn aB b = t -> tape_is b t.
Proof.
  intros Hl <-. rewrite firstn_length in Hl. pose proof aB_bits. split; [lia|].
  intros p Hp. symmetry. apply bit_firstn. lia.
Qed.

Lemma Commit_ok seed v :
  length seed = seedSizeBytes P -> length (v_inputShare v) = sB ->
  length (v_communicatedBits v) = aB -> length (v_outputShare v) = sB ->
  Commit E P seed v = Ok (commit_val seed v).
Proof.
  intros Hs Hi Hc Ho. unfold Commit. rewrite !slice_all by auto. reflexivity.
Qed.

Lemma G_ok j seed v buf :
  length seed = seedSizeBytes P -> length (v_inputShare v) = sB ->
  length (v_communicatedBits v) = aB -> G_len j <= length buf ->
  exists b, G E P j seed v buf = Ok b /\ length b = length buf /\
            firstn (G_len j) b = G_val j seed v.
Proof.
  intros Hs Hi Hc Hb. unfold G.
  assert (Hd : digestSizeBytes P <= G_len j).
  { pose proof (w1_tape P HP1). unfold G_len, aB, sB. destruct (j =? 2); lia. }
  rewrite slice_all by auto. cbn [bind].
  rewrite blit_ok by (rewrite hash_len; lia). cbn [bind].
  replace (if j =? 2 then slice (v_inputShare v) 0 (stateSizeBytes P) else Ok [])
    with (Ok (if j =? 2 then v_inputShare v else []))
    by (destruct (j =? 2); [rewrite slice_all by auto|]; reflexivity).
  cbn [bind]. rewrite slice_all by auto. cbn [bind].
  match goal with |- context [blit _ 0 ?x] => change x with (G_val j seed v) end.
  assert (Hgl : length (G_val j seed v) = G_len j) by apply hash_len.
  rewrite blit_ok by (rewrite Hgl, length_blit0; rewrite ?hash_len; lia).
  eexists. split; [reflexivity|]. split.
  - rewrite length_blit0; [|rewrite Hgl]; rewrite length_blit0; rewrite ?hash_len; lia.
  - apply firstn_blit0. auto.
Qed.

End Z.
