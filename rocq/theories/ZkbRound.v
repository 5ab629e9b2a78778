(** The signer's and the verifier's treatment of one ZKB++ round equal pure functions of seeds,
    salt, keys and the opening; uninitialised memory does not matter. *)

From Coq Require Import List NArith Arith Bool Btauto Lia ZifyBool ZifyNat ZifyN.
From Verif Require Import Base Params Env Spec LowMC Picnic1 BaseFacts ParamFacts LowMCFacts
  LowMCInj Hint ZkbMpc Zkb SigSpec.
Import ListNotations.

(** Replace the contents of uninitialised memory. *)
Definition zeroed (E : env) : env := with_uninit E (fun _ _ len => zeros len).

Lemma with_uninit_id E : with_uninit E (uninit E) = E.
Proof. destruct E. reflexivity. Qed.

Lemma zeroed_bytes E : env_bytes_ok E -> env_bytes_ok (zeroed E).
Proof.
  intros [H _]. split; [exact H|]. intros. split; [apply length_zeros|apply bytes_ok_zeros].
Qed.

(** The public content of the opening of one round. *)
Record opening : Type := mkOpening {
  o_seed1 : bytes; o_seed2 : bytes; o_in : bytes; o_comm : bytes; o_c3 : bytes; o_g3 : bytes }.

(** [by_party ch a b c j]: [a] for party [ch], [b] for its successor, [c] for the other one. *)
Definition by_party {A} (ch : nat) (a b c : A) (j : nat) : A :=
  if j =? ch then a else if j =? nxt ch then b else c.

Definition prv (j : nat) : nat := (j + 2) mod 3.

Lemma prv_lt j : prv j < 3.
Proof. apply Nat.mod_upper_bound. lia. Qed.

Section Z.
Variable E : env.
Variable P : paramset.

Let n := stateSizeBits P.
Let sB := stateSizeBytes P.
Let aB := andSizeBytes P.
Let W := stateSizeWords P.
Let m := numSboxes P.
Let R := numRounds P.
Let L := lowmc_of E P.

Definition dummy_view : view := mkView [] [] [].

Definition views_of (ins tapes : nat -> bytes) (pt : bytes) : tri view :=
  let v j := mkView (ins j) (zeros aB) (zeros sB) in
  match mpc_LowMC (zeroed E) P (tapes 0, tapes 1, tapes 2) (v 0, v 1, v 2) pt (24 * W) with
  | Ok vs => vs
  | _ => (dummy_view, dummy_view, dummy_view)
  end.

Definition ver_of (ch : nat) (in1 in2 t1 t2 comm2 pt : bytes) : view * view :=
  match mpc_LowMC_verify (zeroed E) P (mkView in1 (zeros aB) (zeros sB))
          (mkView in2 comm2 (zeros sB)) (t1, t2) (16 * W) pt ch with
  | Ok vs => vs
  | _ => (dummy_view, dummy_view)
  end.

Hypothesis HP1 : wfP1 P.
Let HP : wfP P := w1_wfP P HP1.
Hypothesis HE : env_bytes_ok E.
Hypothesis HC : constants_ok E P.

Definition in_wf (b : bytes) : Prop := length b = sB /\ bytes_ok b.

Lemma in_wf_bits b : in_wf b -> n <= 8 * length b.
Proof. intros [Hl _]. rewrite Hl. pose proof (sB_bits P HP1). unfold n, sB. lia. Qed.

(** The signer's MPC run, for any scratch and tape buffers with the given used contents. *)
Lemma mpc_LowMC_views ins tapes pt (tb : tri bytes) slab :
  24 * W <= slab -> 4 * W <= length pt -> bytes_ok pt ->
  (forall j, j < 3 -> in_wf (ins j)) ->
  (forall j, j < 3 -> tape_is P (tget tb j) (tapes j)) ->
  let v j := mkView (ins j) (zeros aB) (zeros sB) in
  ok (mpc_LowMC E P tb (v 0, v 1, v 2) pt slab) (fun vs => mpc_views E P ins tapes pt vs).
Proof.
  intros Hslab Hptl Hptb Hin Ht v.
  assert (Hv : forall j, j < 3 -> tget (v 0, v 1, v 2) j = v j)
    by (intros j Hj; destruct (lt3 j Hj) as [-> | [-> | ->]]; reflexivity).
  pose proof (aB_bits P HP1) as HaB.
  eapply ok_mono.
  - apply (mpc_LowMC_spec E P HP HE HC tb (v 0, v 1, v 2) pt slab); auto.
    + intros j Hj. apply Ht; auto.
    + intros j Hj. rewrite Hv by auto. unfold v. cbn [v_inputShare v_communicatedBits v_outputShare].
      rewrite !length_zeros. pose proof (in_wf_bits _ (Hin j Hj)). destruct (Hin j Hj).
      repeat (split; [first [assumption|reflexivity|apply bytes_ok_zeros]|]). apply bytes_ok_zeros.
  - cbv zeta. intros vs H j Hj.
    destruct (H j Hj) as (H1 & H2 & H3 & H4 & H5 & H6).
    rewrite !Hv in * by (auto; apply nxt_lt).
    unfold v in *. cbn [v_inputShare v_communicatedBits v_outputShare] in *.
    split; [auto|]. split; [rewrite H2; apply length_zeros|]. split; [auto|].
    split; [intros p Hp; rewrite H4 by auto; apply bit_zeros|].
    split; [auto|].
    pose proof (Ht j Hj) as [_ Htj]. pose proof (Ht (nxt j) (nxt_lt j)) as [_ Htj'].
    eapply gates_ext; [exact (wf_m P HP)| | | |exact H6]; try (intros i Hi q Hq; reflexivity).
    intros p Hp. split; [auto|]. split; [apply Htj|apply Htj']; auto.
Qed.

Lemma tape_is_refl t : length t = aB -> tape_is P t t.
Proof.
  intros Hl. split; auto. rewrite Hl. apply (aB_bits P HP1).
Qed.

Lemma mpc_LowMC_verify_views ch in1 in2 t1 t2 comm2 pt (tb : duo bytes) tmp :
  16 * W <= tmp -> 4 * W <= length pt -> bytes_ok pt ->
  in_wf in1 -> in_wf in2 -> length comm2 = aB -> bytes_ok comm2 ->
  tape_is P (dget tb 0) t1 -> tape_is P (dget tb 1) t2 ->
  ok (mpc_LowMC_verify E P (mkView in1 (zeros aB) (zeros sB)) (mkView in2 comm2 (zeros sB))
        tb tmp pt ch)
     (fun '(w1, w2) => ver_views E P ch in1 in2 t1 t2 comm2 pt w1 w2).
Proof.
  intros Htmp Hptl Hptb Hi1 Hi2 Hcl Hcb Ht1 Ht2.
  pose proof (aB_bits P HP1) as HaB.
  eapply ok_mono.
  - apply (mpc_LowMC_verify_spec E P HP HE HC tb (mkView in1 (zeros aB) (zeros sB))
             (mkView in2 comm2 (zeros sB)) tmp pt ch); auto.
    + intros j Hj. assert (j = 0 \/ j = 1) as [-> | ->] by lia; [apply Ht1|apply Ht2].
    + pose proof (in_wf_bits _ Hi1). pose proof (in_wf_bits _ Hi2). destruct Hi1, Hi2.
      intros j Hj. assert (j = 0 \/ j = 1) as [-> | ->] by lia;
        cbn [dget fst snd v_inputShare v_communicatedBits v_outputShare];
        rewrite ?length_zeros, ?Hcl;
        (repeat (split; [first [assumption|reflexivity|apply bytes_ok_zeros]|]));
        apply bytes_ok_zeros.
  - cbv zeta. intros [w1 w2] (H1 & H2 & H3 & H4 & H5 & H6 & H7 & H8 & H9).
    cbn [v_inputShare v_communicatedBits v_outputShare] in *.
    unfold ver_views. cbv zeta.
    split; [auto|]. split; [auto|]. split; [auto|]. split; [rewrite H4; apply length_zeros|].
    split; [auto|]. split; [intros p Hp; rewrite H6 by auto; apply bit_zeros|].
    split; [auto|]. split; [auto|].
    eapply gates_ext; [exact (wf_m P HP)| | | |exact H9]; try (intros i Hi q Hq; reflexivity).
    intros p Hp. split; [auto|]. split; [apply Ht1|apply Ht2]; auto.
Qed.
End Z.

Section Z2.
Variable E : env.
Variable P : paramset.

Let n := stateSizeBits P.
Let sB := stateSizeBytes P.
Let aB := andSizeBytes P.
Let W := stateSizeWords P.
Let m := numSboxes P.
Let R := numRounds P.
Let L := lowmc_of E P.

Hypothesis HP1 : wfP1 P.
Let HP : wfP P := w1_wfP P HP1.
Hypothesis HE : env_bytes_ok E.
Hypothesis HC : constants_ok E P.

Lemma views_of_spec ins tapes pt :
  4 * W <= length pt -> bytes_ok pt ->
  (forall j, j < 3 -> in_wf P (ins j)) -> (forall j, j < 3 -> length (tapes j) = aB) ->
  mpc_views E P ins tapes pt (views_of E P ins tapes pt).
Proof.
  intros Hptl Hptb Hin Ht. unfold views_of. fold sB aB W.
  pose proof (mpc_LowMC_views (zeroed E) P HP1 (zeroed_bytes E HE) HC ins tapes pt
                (tapes 0, tapes 1, tapes 2) (24 * W) (le_n _) Hptl Hptb Hin) as H.
  cbv zeta in H. fold sB aB in H.
  destruct (mpc_LowMC _ _ _ _ _ _) as [vs| | |]; cbn [ok] in H;
    [apply H| exfalso; apply H | exfalso; apply H | exfalso; apply H];
    intros j Hj; destruct (lt3 j Hj) as [-> | [-> | ->]]; apply tape_is_refl; auto.
Qed.

Lemma mpc_LowMC_eq ins tapes pt (tb : tri bytes) slab :
  24 * W <= slab -> 4 * W <= length pt -> bytes_ok pt ->
  (forall j, j < 3 -> in_wf P (ins j)) -> (forall j, j < 3 -> length (tapes j) = aB) ->
  (forall j, j < 3 -> tape_is P (tget tb j) (tapes j)) ->
  let v j := mkView (ins j) (zeros aB) (zeros sB) in
  mpc_LowMC E P tb (v 0, v 1, v 2) pt slab = Ok (views_of E P ins tapes pt).
Proof.
  intros Hs Hptl Hptb Hin Htl Ht v.
  pose proof (mpc_LowMC_views E P HP1 HE HC ins tapes pt tb slab Hs Hptl Hptb Hin Ht) as H.
  cbv zeta in H. fold sB aB in H. fold (v 0) (v 1) (v 2) in H.
  destruct (mpc_LowMC _ _ _ _ _ _) as [vs| | |]; cbn [ok] in H; try contradiction.
  f_equal. eapply (mpc_views_unique E P HP1); [|exact H|apply views_of_spec; auto].
  intros i Hi. reflexivity.
Qed.

Lemma views_of_pt ins tapes pt pt' :
  4 * W <= length pt -> bytes_ok pt -> 4 * W <= length pt' -> bytes_ok pt' ->
  veq n (bit pt) (bit pt') ->
  (forall j, j < 3 -> in_wf P (ins j)) -> (forall j, j < 3 -> length (tapes j) = aB) ->
  views_of E P ins tapes pt = views_of E P ins tapes pt'.
Proof.
  intros. eapply (mpc_views_unique E P HP1); [eassumption| |]; apply views_of_spec; auto.
Qed.

Lemma ver_of_spec ch in1 in2 t1 t2 comm2 pt :
  4 * W <= length pt -> bytes_ok pt -> in_wf P in1 -> in_wf P in2 ->
  length comm2 = aB -> bytes_ok comm2 -> length t1 = aB -> length t2 = aB ->
  ver_views E P ch in1 in2 t1 t2 comm2 pt
    (fst (ver_of E P ch in1 in2 t1 t2 comm2 pt)) (snd (ver_of E P ch in1 in2 t1 t2 comm2 pt)).
Proof.
  intros Hptl Hptb Hi1 Hi2 Hcl Hcb Ht1 Ht2. unfold ver_of. fold sB aB W.
  pose proof (mpc_LowMC_verify_views (zeroed E) P HP1 (zeroed_bytes E HE) HC ch in1 in2 t1 t2
                comm2 pt (t1, t2) (16 * W) (le_n _) Hptl Hptb Hi1 Hi2 Hcl Hcb
                (tape_is_refl P HP1 t1 Ht1) (tape_is_refl P HP1 t2 Ht2)) as H.
  fold sB aB in H.
  destruct (mpc_LowMC_verify _ _ _ _ _ _ _ _) as [[w1 w2]| | |]; cbn [ok] in H; try contradiction.
  exact H.
Qed.

Lemma mpc_LowMC_verify_eq ch in1 in2 t1 t2 comm2 pt (tb : duo bytes) tmp :
  16 * W <= tmp -> 4 * W <= length pt -> bytes_ok pt ->
  in_wf P in1 -> in_wf P in2 -> length comm2 = aB -> bytes_ok comm2 ->
  length t1 = aB -> length t2 = aB ->
  tape_is P (dget tb 0) t1 -> tape_is P (dget tb 1) t2 ->
  mpc_LowMC_verify E P (mkView in1 (zeros aB) (zeros sB)) (mkView in2 comm2 (zeros sB))
        tb tmp pt ch = Ok (ver_of E P ch in1 in2 t1 t2 comm2 pt).
Proof.
  intros Htmp Hptl Hptb Hi1 Hi2 Hcl Hcb Hl1 Hl2 Ht1 Ht2.
  pose proof (mpc_LowMC_verify_views E P HP1 HE HC ch in1 in2 t1 t2
                comm2 pt tb tmp Htmp Hptl Hptb Hi1 Hi2 Hcl Hcb Ht1 Ht2) as H.
  fold sB aB in H.
  destruct (mpc_LowMC_verify _ _ _ _ _ _ _ _) as [[w1 w2]| | |]; cbn [ok] in H; try contradiction.
  f_equal.
  destruct (ver_views_unique E P HP1 _ _ _ _ _ _ _ _ _ _ _ _ (fun i _ => eq_refl) H
              (ver_of_spec ch in1 in2 t1 t2 comm2 pt Hptl Hptb Hi1 Hi2 Hcl Hcb Hl1 Hl2)) as [-> ->].
  symmetry. apply surjective_pairing.
Qed.

Lemma ver_of_pt ch in1 in2 t1 t2 comm2 pt pt' :
  4 * W <= length pt -> bytes_ok pt -> 4 * W <= length pt' -> bytes_ok pt' ->
  veq n (bit pt) (bit pt') ->
  in_wf P in1 -> in_wf P in2 ->
  length comm2 = aB -> bytes_ok comm2 -> length t1 = aB -> length t2 = aB ->
  ver_of E P ch in1 in2 t1 t2 comm2 pt = ver_of E P ch in1 in2 t1 t2 comm2 pt'.
Proof.
  intros Hl Hb Hl' Hb' Hpt Hi1 Hi2 Hcl Hcb Hl1 Hl2.
  destruct (ver_views_unique E P HP1 _ _ _ _ _ _ _ _ _ _ _ _ Hpt
              (ver_of_spec ch in1 in2 t1 t2 comm2 pt Hl Hb Hi1 Hi2 Hcl Hcb Hl1 Hl2)
              (ver_of_spec ch in1 in2 t1 t2 comm2 pt' Hl' Hb' Hi1 Hi2 Hcl Hcb Hl1 Hl2)) as [H1 H2].
  rewrite (surjective_pairing (ver_of E P ch in1 in2 t1 t2 comm2 pt)), H1, H2.
  symmetry. apply surjective_pairing.
Qed.

(** ** The verifier's round *)

(** Input share of party [p]: from the seed, or given in the opening. *)
Definition share_in (seed inp salt : bytes) (k p : nat) : bytes :=
  if p <? 2 then party_in E P seed salt k p else clear_tail P inp.

Definition vr_views (ch : nat) (o : opening) (salt : bytes) (k : nat) (pt : bytes) : view * view :=
  ver_of E P ch (share_in (o_seed1 o) (o_in o) salt k ch)
         (share_in (o_seed2 o) (o_in o) salt k (nxt ch))
         (party_tape E P (o_seed1 o) salt k ch) (party_tape E P (o_seed2 o) salt k (nxt ch))
         (o_comm o) pt.

Definition vr_out (ch : nat) (o : opening) (salt : bytes) (k : nat) (pub pt : bytes) (j : nat) : bytes :=
  let '(w1, w2) := vr_views ch o salt k pt in
  by_party ch (v_outputShare w1) (v_outputShare w2)
    (lxor_list (lxor_list (v_outputShare w1) (v_outputShare w2)) (firstn sB pub)) j.

Definition vr_commit (ch : nat) (o : opening) (salt : bytes) (k : nat) (pt : bytes) (j : nat) : bytes :=
  let '(w1, w2) := vr_views ch o salt k pt in
  by_party ch (commit_val E P (o_seed1 o) w1) (commit_val E P (o_seed2 o) w2) (o_c3 o) j.

Definition vr_g (ch : nat) (o : opening) (salt : bytes) (k : nat) (pt : bytes) (j : nat) : bytes :=
  let '(w1, w2) := vr_views ch o salt k pt in
  by_party ch (G_val E P ch (o_seed1 o) w1) (G_val E P (nxt ch) (o_seed2 o) w2) (o_g3 o) j.

(** Sizes of the parts of an opening. *)
Definition opening_wf (ch : nat) (o : opening) : Prop :=
  length (o_seed1 o) = seedSizeBytes P /\ length (o_seed2 o) = seedSizeBytes P /\
  length (o_comm o) = aB /\ bytes_ok (o_comm o) /\
  length (o_c3 o) = digestSizeBytes P /\
  (is_UR (transf P) = true -> length (o_g3 o) = G_len P (prv ch)) /\
  (ch <> 0 -> in_wf P (o_in o)).

(** A C proof structure carrying the opening [o] for challenge [ch]. *)
Definition proof_is (ch : nat) (pr : proof) (o : opening) : Prop :=
  p_seed1 pr = o_seed1 o /\ p_seed2 pr = o_seed2 o /\ p_communicatedBits pr = o_comm o /\
  p_view3Commitment pr = o_c3 o /\
  (is_UR (transf P) = true -> length (p_view3UnruhG pr) = UnruhGWithInputBytes P /\
        firstn (G_len P (prv ch)) (p_view3UnruhG pr) = o_g3 o) /\
  length (p_inputShare pr) = sB /\ (ch <> 0 -> p_inputShare pr = o_in o).

Lemma share_in_wf seed inp salt k p :
  (p = 2 -> in_wf P inp) -> p < 3 -> in_wf P (share_in seed inp salt k p).
Proof.
  intros Hin Hp. unfold share_in. destruct (Nat.ltb_spec p 2).
  - destruct (party_in_wf E P HP1 HE seed salt k p H) as (H1 & H2 & _). split; auto.
  - assert (p = 2) as -> by lia. destruct (Hin eq_refl) as [Hl Hb].
    destruct (clear_tail_spec P HP1 inp Hl) as (_ & H1 & H2 & _). split; auto.
Qed.

Lemma G_len_prv ch : is_UR (transf P) = true -> ch < 3 ->
  (if ch =? 0 then UnruhGWithInputBytes P else UnruhGWithoutInputBytes P) = G_len P (prv ch).
Proof.
  intros Hur Hch. rewrite (w1_Gw P HP1 Hur), (w1_Gwo P HP1 Hur).
  destruct (lt3 ch Hch) as [-> | [-> | ->]]; unfold G_len; simpl; lia.
Qed.

Lemma vr_views_spec ch o salt k pt :
  ch < 3 -> opening_wf ch o -> 4 * W <= length pt -> bytes_ok pt ->
  ver_views E P ch (share_in (o_seed1 o) (o_in o) salt k ch)
         (share_in (o_seed2 o) (o_in o) salt k (nxt ch))
         (party_tape E P (o_seed1 o) salt k ch) (party_tape E P (o_seed2 o) salt k (nxt ch))
         (o_comm o) pt (fst (vr_views ch o salt k pt)) (snd (vr_views ch o salt k pt)).
Proof.
  intros Hch (Hs1 & Hs2 & Hcl & Hcb & Hc3 & Hg3 & Hin) Hptl Hptb.
  apply ver_of_spec; auto.
  - apply share_in_wf; auto. intros ->. apply Hin. lia.
  - apply share_in_wf; auto; [|apply nxt_lt]. intros Hn. apply Hin.
    intros ->. discriminate.
  - apply length_party_tape; auto.
  - apply length_party_tape; auto.
Qed.

Lemma firstn_share seed salt k p b tmp :
  p < 2 -> firstn (party_len P p) tmp = party_bytes E P seed salt k p ->
  b = firstn sB (skipn 0 tmp) -> sB <= length tmp ->
  zeroTrailingBits b n = Ok (party_in E P seed salt k p).
Proof.
  intros Hp Ht -> Hlen. cbn [skipn].
  assert (Hb : firstn sB tmp = firstn sB (party_bytes E P seed salt k p)).
  { rewrite <- Ht, firstn_firstn_le; auto. unfold party_len. replace (p <? 2) with true by lia.
    fold sB. lia. }
  rewrite Hb. apply (clear_tail_spec P HP1).
  rewrite <- Hb, firstn_length. fold sB. lia.
Qed.

Lemma skipn_tape seed salt k p tmp :
  p < 2 -> firstn (party_len P p) tmp = party_bytes E P seed salt k p ->
  firstn aB (skipn sB tmp) = party_tape E P seed salt k p.
Proof.
  intros Hp Ht. unfold party_tape. replace (p <? 2) with true by lia.
  apply firstn_skipn_prefix. rewrite <- Ht. unfold party_len.
  replace (p <? 2) with true by lia. reflexivity.
Qed.

Lemma verifyProof_eq ch pr o salt k tmp pt (tape : duo bytes) :
  ch < 3 -> opening_wf ch o -> proof_is ch pr o -> length salt = saltSizeBytes P ->
  4 * W <= length pt -> bytes_ok pt ->
  length tmp = Nat.max (6 * sB) (sB + aB) ->
  aB <= length (dget tape 0) -> aB <= length (dget tape 1) ->
  verifyProof E P pr (allocateView P) (allocateView P) ch salt k tmp pt tape
  = Ok (vr_views ch o salt k pt).
Proof.
  intros Hch Hwf Hpr Hsalt Hptl Hptb Htmp Htp0 Htp1.
  pose proof Hwf as (Hs1 & Hs2 & Hcl & Hcb & Hc3 & Hg3 & Hin).
  destruct Hpr as (Ep1 & Ep2 & Ec & Ec3 & Eg & Hil & Ei).
  pose proof (w1_tmpv P HP1) as Htv. fold sB aB W in Htv.
  unfold verifyProof, allocateView. cbn [v_inputShare v_communicatedBits v_outputShare].
  fold sB aB n.
  rewrite Ec, copy_all by (rewrite ?length_zeros; lia). cbn [bind skipn].
  replace (firstn aB (o_comm o)) with (o_comm o) by (rewrite <- Hcl, firstn_all; auto).
  assert (Hz : sB = length (zeros sB)) by (rewrite length_zeros; auto).
  destruct (lt3 ch Hch) as [-> | [-> | ->]].
  - rewrite Ep1, Ep2.
    pose proof (createRandomTape_spec E P HP1 HE (o_seed1 o) salt k 0 tmp Hs1 Hsalt) as HT1.
    change (party_len P 0) with (sB + aB) in HT1. specialize (HT1 ltac:(lia)).
    destruct (createRandomTape E P (o_seed1 o) salt k 0 tmp (sB + aB)) as [[st1 tmp1]| | |];
      cbn [ok] in HT1; try contradiction. destruct HT1 as (-> & Hl1 & _ & Hf1). cbn [bind].
    rewrite copy_all by (auto; lia). cbn [bind].
    rewrite copy_ok by lia. cbn [bind].
    pose proof (createRandomTape_spec E P HP1 HE (o_seed2 o) salt k 1 tmp1 Hs2 Hsalt) as HT2.
    change (party_len P 1) with (sB + aB) in HT2. specialize (HT2 ltac:(lia)).
    destruct (createRandomTape E P (o_seed2 o) salt k 1 tmp1 (sB + aB)) as [[st2 tmp2]| | |];
      cbn [ok] in HT2; try contradiction. destruct HT2 as (-> & Hl2 & _ & Hf2). cbn [bind].
    rewrite copy_all by (auto; lia). cbn [bind].
    rewrite copy_ok by lia. cbn [bind].
    rewrite (firstn_share (o_seed1 o) salt k 0 _ tmp1) by (auto; lia). cbn [bind].
    rewrite (firstn_share (o_seed2 o) salt k 1 _ tmp2) by (auto; lia). cbn [bind].
    rewrite (skipn_tape (o_seed1 o) salt k 0 tmp1) by (auto; lia).
    rewrite (skipn_tape (o_seed2 o) salt k 1 tmp2) by (auto; lia).
    destruct (party_in_wf E P HP1 HE (o_seed1 o) salt k 0 ltac:(lia)) as (A1 & A2 & _).
    destruct (party_in_wf E P HP1 HE (o_seed2 o) salt k 1 ltac:(lia)) as (B1 & B2 & _).
    pose proof (length_party_tape E P HE (o_seed1 o) salt k 0) as T1.
    pose proof (length_party_tape E P HE (o_seed2 o) salt k 1) as T2.
    rewrite (mpc_LowMC_verify_eq 0 _ _ (party_tape E P (o_seed1 o) salt k 0)
               (party_tape E P (o_seed2 o) salt k 1)); auto; try (split; solve [auto]).
    + lia.
    + cbn [dget fst]. apply tape_is_copy; auto.
    + cbn [dget snd]. apply tape_is_copy; auto.
  - rewrite Ep1, Ep2. specialize (Hin ltac:(lia)). specialize (Ei ltac:(lia)).
    pose proof (createRandomTape_spec E P HP1 HE (o_seed1 o) salt k 1 tmp Hs1 Hsalt) as HT1.
    change (party_len P 1) with (sB + aB) in HT1. specialize (HT1 ltac:(lia)).
    destruct (createRandomTape E P (o_seed1 o) salt k 1 tmp (sB + aB)) as [[st1 tmp1]| | |];
      cbn [ok] in HT1; try contradiction. destruct HT1 as (-> & Hl1 & _ & Hf1). cbn [bind].
    rewrite copy_all by (auto; lia). cbn [bind].
    rewrite copy_ok by lia. cbn [bind].
    pose proof (createRandomTape_spec E P HP1 HE (o_seed2 o) salt k 2 (dget tape 1) Hs2 Hsalt) as HT2.
    change (party_len P 2) with aB in HT2. specialize (HT2 ltac:(lia)).
    destruct (createRandomTape E P (o_seed2 o) salt k 2 (dget tape 1) aB) as [[st2 tp2]| | |];
      cbn [ok] in HT2; try contradiction. destruct HT2 as (-> & Hl2 & _ & Hf2). cbn [bind].
    rewrite copy_all by (auto; lia). cbn [bind skipn].
    rewrite Ei. replace (firstn sB (o_in o)) with (o_in o)
      by (destruct Hin as [Hil' _]; fold sB in Hil'; rewrite <- Hil', firstn_all; auto).
    rewrite (firstn_share (o_seed1 o) salt k 1 _ tmp1) by (auto; lia). cbn [bind].
    destruct Hin as [Hinl Hinb].
    destruct (clear_tail_spec P HP1 (o_in o) Hinl) as (Z1 & Z2 & Z3 & _).
    fold n in Z1. rewrite Z1. cbn [bind].
    rewrite (skipn_tape (o_seed1 o) salt k 1 tmp1) by (auto; lia).
    destruct (party_in_wf E P HP1 HE (o_seed1 o) salt k 1 ltac:(lia)) as (A1 & A2 & _).
    pose proof (length_party_tape E P HE (o_seed1 o) salt k 1) as T1.
    pose proof (length_party_tape E P HE (o_seed2 o) salt k 2) as T2.
    rewrite (mpc_LowMC_verify_eq 1 _ _ (party_tape E P (o_seed1 o) salt k 1)
               (party_tape E P (o_seed2 o) salt k 2)); auto; try (split; solve [auto]).
    + lia.
    + cbn [dget fst]. apply tape_is_copy; auto.
    + cbn [dget snd]. apply tape_is_firstn; auto.
  - rewrite Ep1, Ep2. specialize (Hin ltac:(lia)). specialize (Ei ltac:(lia)).
    pose proof (createRandomTape_spec E P HP1 HE (o_seed1 o) salt k 2 (dget tape 0) Hs1 Hsalt) as HT2.
    change (party_len P 2) with aB in HT2. specialize (HT2 ltac:(lia)).
    destruct (createRandomTape E P (o_seed1 o) salt k 2 (dget tape 0) aB) as [[st2 tp2]| | |];
      cbn [ok] in HT2; try contradiction. destruct HT2 as (-> & Hl2 & _ & Hf2). cbn [bind].
    rewrite copy_all by (auto; lia). cbn [bind skipn].
    rewrite Ei. replace (firstn sB (o_in o)) with (o_in o)
      by (destruct Hin as [Hil' _]; fold sB in Hil'; rewrite <- Hil', firstn_all; auto).
    pose proof (createRandomTape_spec E P HP1 HE (o_seed2 o) salt k 0 tmp Hs2 Hsalt) as HT1.
    change (party_len P 0) with (sB + aB) in HT1. specialize (HT1 ltac:(lia)).
    destruct (createRandomTape E P (o_seed2 o) salt k 0 tmp (sB + aB)) as [[st1 tmp1]| | |];
      cbn [ok] in HT1; try contradiction. destruct HT1 as (-> & Hl1 & _ & Hf1). cbn [bind].
    rewrite copy_all by (auto; lia). cbn [bind].
    rewrite copy_ok by lia. cbn [bind].
    destruct Hin as [Hinl Hinb].
    destruct (clear_tail_spec P HP1 (o_in o) Hinl) as (Z1 & Z2 & Z3 & _).
    fold n in Z1. rewrite Z1. cbn [bind].
    rewrite (firstn_share (o_seed2 o) salt k 0 _ tmp1) by (auto; lia). cbn [bind].
    rewrite (skipn_tape (o_seed2 o) salt k 0 tmp1) by (auto; lia).
    destruct (party_in_wf E P HP1 HE (o_seed2 o) salt k 0 ltac:(lia)) as (A1 & A2 & _).
    pose proof (length_party_tape E P HE (o_seed1 o) salt k 2) as T1.
    pose proof (length_party_tape E P HE (o_seed2 o) salt k 0) as T2.
    rewrite (mpc_LowMC_verify_eq 2 _ _ (party_tape E P (o_seed1 o) salt k 2)
               (party_tape E P (o_seed2 o) salt k 0)); auto; try (split; solve [auto]).
    + lia.
    + cbn [dget fst]. apply tape_is_firstn; auto.
    + cbn [dget snd]. apply tape_is_copy; auto.
Qed.

End Z2.
