(** Picnic3 signatures as byte strings. *)

From Coq Require Import List NArith Arith Bool Lia ZifyBool ZifyNat ZifyN.
From Verif Require Import Base Params Env Spec LowMC Tree Picnic3 BaseFacts ParamFacts LowMCFacts UtilFacts
  TreeShape TreeSeed TreeReveal TreeOpen TreeMissing TreeMerkle TreeVerify TreeSpec TreeTop
  P3Tape P3Aux P3Online P3Mask P3Chal P3Round P3Seeds P3Verify.
Import ListNotations.

Lemma cut_app {A} (b : list A) k : k <= length b -> exists x y, b = x ++ y /\ length x = k.
Proof. intros H. exists (firstn k b), (skipn k b). rewrite firstn_skipn, firstn_length. split; [auto|lia]. Qed.

Lemma Forall_app_l {A} (Q : A -> Prop) a b : Forall Q (a ++ b) -> Forall Q a /\ Forall Q b.
Proof. apply Forall_app. Qed.

Section C.
Variable P : paramset.

Let n := stateSizeBits P.
Let R := numRounds P.
Let sB := stateSizeBytes P.
Let aB := andSizeBytes P.
Let sz := seedSizeBytes P.
Let sl := saltSizeBytes P.
Let dg := digestSizeBytes P.
Let T := numMPCRounds P.

Definition padz (b : bytes) : bool := val false (arePaddingBitsZero b (3 * numRounds P * numSboxes P)).

(** The proof of round [t] for a challenge [C], [L]. *)
Definition rwf (C L : list nat) (t : nat) (o : option proof2) : Prop :=
  if contains C t then
    exists q, o = Some q /\ proof_wf P q /\ (party C L t = 15 -> q_aux q = zeros aB)
  else o = None.

Definition renc (C L : list nat) (t : nat) (o : option proof2) : bytes :=
  if contains C t then
    match o with
    | Some q => q_seedInfo q ++ (if party C L t =? 15 then [] else q_aux q) ++ q_input q ++ q_msgs q ++ q_C q
    | None => []
    end
  else [].

Definition rpad (C L : list nat) (t : nat) (o : option proof2) : bool :=
  if contains C t then
    match o with
    | Some q => ((party C L t =? 15) || padz (q_aux q)) && padz (q_msgs q)
    | None => true
    end
  else true.

Definition plen (C L : list nat) (t : nat) : nat :=
  if contains C t then (if party C L t =? 15 then 0 else aB) + 4 * sz + sB + aB + dg else 0.

Definition enc3 (s : signature2) : bytes :=
  g_challengeHash s ++ g_salt s ++ g_iSeedInfo s ++ g_cvInfo s ++
  concat (map (fun t => renc (g_challengeC s) (g_challengeP s) t (nth t (g_proofs s) None)) (seq 0 T)).

(** A signature structure all of whose fields have their sizes. *)
Definition sig3_raw (s : signature2) : Prop :=
  length (g_salt s) = sl /\ length (g_challengeHash s) = dg /\
  chal_wf P (g_challengeC s) (g_challengeP s) /\
  length (g_iSeedInfo s) = length (rvs T (g_challengeC s)) * sz /\
  length (g_cvInfo s) = length (mrvs T (others P (g_challengeC s))) * dg /\
  length (g_proofs s) = T /\
  (forall t, t < T -> rwf (g_challengeC s) (g_challengeP s) t (nth t (g_proofs s) None)).

Hypothesis HP3 : wfP3 P.

Let HT : 2 <= T <= 1024 := T_rng P HP3.

Lemma raw_wf s : sig3_raw s -> sig3_wf P s.
Proof.
  intros (H1 & H2 & H3 & H4 & H5 & H6 & H7). unfold sig3_wf. repeat (split; [solve [auto]|]).
  intros t Ht. assert (t < T). { destruct H3 as (_ & _ & H3 & _). rewrite Forall_forall in H3. auto. }
  specialize (H7 t H). unfold rwf in H7.
  replace (contains (g_challengeC s) t) with true in H7 by (symmetry; apply contains_In; auto).
  destruct H7 as (q & Hq & Hw & _). eauto.
Qed.

Lemma padz_ok b : length b = aB -> arePaddingBitsZero b (3 * numRounds P * numSboxes P) = Ok (padz b) /\
  (padz b = true <-> forall i, n * R <= i < 8 * aB -> bit b i = false).
Proof.
  intros Hb. pose proof (w3_m P HP3) as Hm. pose proof (wf_aB P (w3_wfP P HP3)) as Ha. fold aB in Ha.
  assert (Hk : 3 * numRounds P * numSboxes P = n * R) by (unfold n, R; rewrite <- Hm; lia).
  assert (Ha' : aB = numBytes (n * R)).
  { rewrite Ha. f_equal. unfold n, R. rewrite <- Hm. lia. }
  pose proof (numBytes_spec (n * R)) as Hnb.
  unfold padz. rewrite Hk. destruct (arePaddingBitsZero_spec b (n * R)) as (v & -> & Hv); [lia|].
  cbn [val]. split; [auto|]. rewrite Hv. rewrite <- Ha'. reflexivity.
Qed.

Lemma revealMSize C : Forall (fun l => l < T) C ->
  openMerkleTreeSize P T C = Ok (length (mrvs T C) * dg).
Proof.
  intros HC. unfold openMerkleTreeSize.
  pose proof (createTree_ok T (Nat.log2_up T) ltac:(lia) eq_refl (D_small T HT) (digestSizeBytes P)) as H. apply ok_ex in H.
  destruct H as (t0 & -> & Hs & _). cbn [bind]. destruct (mrvs_ok T HT C _ t0 HC Hs) as [-> _]. reflexivity.
Qed.

Section CL.
Variables C L : list nat.
Hypothesis Hw : chal_wf P C L.

Lemma others_lt : Forall (fun l => l < T) (others P C).
Proof. apply Forall_forall. intros x Hx. apply others_In in Hx. apply Hx. Qed.

Lemma plen_ok t : proof2_length P C L t (4 * sz) = Ok (plen C L t).
Proof.
  unfold proof2_length, plen. destruct (contains C t) eqn:Ec; [|reflexivity]. apply contains_In in Ec.
  destruct (unopened_party_ok P C L t Hw Ec) as [-> _]. cbn [bind]. rewrite (w3_N P HP3). change (16 - 1) with 15.
  destruct (party C L t =? 15); reflexivity.
Qed.

Lemma renc_len t o : rwf C L t o -> length (renc C L t o) = plen C L t.
Proof.
  unfold rwf, renc, plen. destruct (contains C t); [|reflexivity].
  intros (q & -> & (Q1 & Q2 & Q3 & Q4 & Q5 & _) & _). fold sz sB aB dg in Q1, Q2, Q3, Q4, Q5.
  rewrite !app_length. destruct (party C L t =? 15); cbn [length]; lia.
Qed.

Lemma dround_ok t o pre post : rwf C L t o ->
  deserialize2_round P C L (4 * sz) (pre ++ renc C L t o ++ post) (length pre) t =
  Ok (if rpad C L t o then Some (o, length pre + plen C L t) else None).
Proof.
  unfold rwf, renc, rpad, plen, deserialize2_round. destruct (contains C t) eqn:Ec.
  2:{ intros ->. rewrite Nat.add_0_r. reflexivity. }
  intros (q & -> & (Q1 & Q2 & Q3 & Q4 & Q5 & Q6 & Q7) & Qa). fold sz sB aB dg in Q1, Q2, Q3, Q4, Q5.
  apply contains_In in Ec. rewrite <- !app_assoc.
  rewrite slice_app_off by auto. cbn [bind].
  destruct (unopened_party_ok P C L t Hw Ec) as [-> _]. cbn [bind]. rewrite (w3_N P HP3). change (16 - 1) with 15.
  destruct (Nat.eqb_spec (party C L t) 15) as [Hp|Hp]; cbn [negb orb andb].
  - cbn [bind app]. fold aB sB dg. rewrite (app_assoc pre).
    rewrite (slice_app_off (pre ++ q_seedInfo q)) by (rewrite ?app_length; auto; lia). cbn [bind].
    rewrite (app_assoc _ (q_input q)).
    rewrite (slice_app_off ((pre ++ q_seedInfo q) ++ q_input q)) by (rewrite ?app_length; auto; lia). cbn [bind].
    destruct (padz_ok (q_msgs q) Q5) as [-> _]. cbn [bind]. destruct (padz (q_msgs q)); cbn [negb]; [|reflexivity].
    rewrite (app_assoc _ (q_msgs q)).
    rewrite (slice_app_off (((pre ++ q_seedInfo q) ++ q_input q) ++ q_msgs q)) by (rewrite ?app_length; auto; lia). cbn [bind].
    rewrite <- (Qa Hp). destruct q as [x1 x2 x3 x4 x5]. cbn [q_seedInfo q_aux q_C q_input q_msgs]. do 3 f_equal. lia.
  - fold aB sB dg. rewrite (app_assoc pre).
    rewrite (slice_app_off (pre ++ q_seedInfo q)) by (rewrite ?app_length; auto; lia). cbn [bind].
    destruct (padz_ok (q_aux q) Q2) as [-> _]. cbn [bind]. destruct (padz (q_aux q)); cbn [negb andb]; [|reflexivity].
    rewrite (app_assoc _ (q_aux q)).
    rewrite (slice_app_off ((pre ++ q_seedInfo q) ++ q_aux q)) by (rewrite ?app_length; auto; lia). cbn [bind].
    rewrite (app_assoc _ (q_input q)).
    rewrite (slice_app_off (((pre ++ q_seedInfo q) ++ q_aux q) ++ q_input q)) by (rewrite ?app_length; auto; lia). cbn [bind].
    destruct (padz_ok (q_msgs q) Q5) as [-> _]. cbn [bind]. destruct (padz (q_msgs q)); cbn [negb]; [|reflexivity].
    rewrite (app_assoc _ (q_msgs q)).
    rewrite (slice_app_off ((((pre ++ q_seedInfo q) ++ q_aux q) ++ q_input q) ++ q_msgs q)) by (rewrite ?app_length; auto; lia). cbn [bind].
    destruct q as [x1 x2 x3 x4 x5]. cbn [q_seedInfo q_aux q_C q_input q_msgs]. do 3 f_equal. lia.
Qed.

Lemma drounds_ok k : forall t (f : nat -> option proof2) pre, (forall i, t <= i < t + k -> rwf C L i (f i)) ->
  deserialize2_rounds P k t C L (4 * sz) (pre ++ concat (map (fun i => renc C L i (f i)) (seq t k))) (length pre) =
  Ok (if forallb (fun i => rpad C L i (f i)) (seq t k) then Some (map f (seq t k)) else None).
Proof.
  induction k as [|k IH]; intros t f pre Hf; [reflexivity|]. cbn [deserialize2_rounds seq map concat forallb].
  rewrite dround_ok by (apply Hf; lia). cbn [bind]. destruct (rpad C L t (f t)); cbn [andb]; [|reflexivity].
  rewrite app_assoc. replace (length pre + plen C L t) with (length (pre ++ renc C L t (f t))).
  2:{ rewrite app_length, renc_len by (apply Hf; lia). reflexivity. }
  rewrite IH by (intros i Hi; apply Hf; lia). cbn [bind]. destruct (forallb _ _); reflexivity.
Qed.

(** Any byte string of the right length is the encoding of proofs. *)
Lemma round_cut t b : plen C L t <= length b -> bytes_ok b ->
  exists o rest, b = renc C L t o ++ rest /\ rwf C L t o /\ bytes_ok rest.
Proof.
  unfold rwf, renc, plen. destruct (contains C t).
  2:{ intros _ Hb. exists None, b. auto. }
  intros Hl Hb.
  destruct (cut_app b (4 * sz)) as (x1 & b1 & -> & H1); [lia|]. rewrite app_length in Hl. apply Forall_app_l in Hb. destruct Hb as [B1 Hb].
  assert (Hx : exists x2 b2, b1 = (if party C L t =? 15 then [] else x2) ++ b2 /\ length x2 = aB /\
              (party C L t = 15 -> x2 = zeros aB)).
  { destruct (Nat.eqb_spec (party C L t) 15) as [Hp|Hp].
    - exists (zeros aB), b1. split; [auto|]. split; [apply length_zeros|auto].
    - destruct (cut_app b1 aB) as (x2 & b2 & -> & H2); [lia|]. exists x2, b2. split; [auto|]. split; [auto|]. intros; contradiction. }
  destruct Hx as (x2 & b2 & -> & H2 & H2'). rewrite app_length in Hl. apply Forall_app_l in Hb. destruct Hb as [B2 Hb].
  assert (Hl2 : sB + aB + dg <= length b2). { destruct (party C L t =? 15); cbn [length] in Hl; lia. }
  destruct (cut_app b2 sB) as (x3 & b3 & -> & H3); [lia|]. rewrite app_length in Hl2. apply Forall_app_l in Hb. destruct Hb as [B3 Hb].
  destruct (cut_app b3 aB) as (x4 & b4 & -> & H4); [lia|]. rewrite app_length in Hl2. apply Forall_app_l in Hb. destruct Hb as [B4 Hb].
  destruct (cut_app b4 dg) as (x5 & b5 & -> & H5); [lia|]. apply Forall_app_l in Hb. destruct Hb as [B5 Hb].
  exists (Some (mkProof2 x1 x2 x5 x3 x4)), b5. cbn [q_seedInfo q_aux q_C q_input q_msgs]. split.
  - rewrite <- !app_assoc. reflexivity.
  - split; [|auto]. eexists. split; [reflexivity|]. split; [|cbn; auto].
    unfold proof_wf. cbn [q_seedInfo q_aux q_C q_input q_msgs]. auto 10.
Qed.

Lemma rounds_cut k : forall t b, length b = list_sum (map (plen C L) (seq t k)) -> bytes_ok b ->
  exists f, b = concat (map (fun i => renc C L i (f i)) (seq t k)) /\ forall i, t <= i < t + k -> rwf C L i (f i).
Proof.
  induction k as [|k IH]; intros t b Hl Hb; cbn [seq map list_sum concat] in *.
  - apply length_zero_iff_nil in Hl. subst b. exists (fun _ => None). split; [auto|]. intros; lia.
  - change (list_sum (plen C L t :: map (plen C L) (seq (S t) k))) with (plen C L t + list_sum (map (plen C L) (seq (S t) k))) in Hl.
    destruct (round_cut t b ltac:(lia) Hb) as (o & rest & -> & Ho & Hr).
    destruct (IH (S t) rest) as (f & Hf & Hfw); auto.
    { rewrite app_length, renc_len in Hl by auto. lia. }
    exists (fun i => if i =? t then o else f i). rewrite Nat.eqb_refl. split.
    + f_equal. rewrite Hf. f_equal. apply map_ext_in. intros i Hi. apply in_seq in Hi. replace (i =? t) with false by lia. reflexivity.
    + intros i Hi. destruct (Nat.eqb_spec i t) as [->|Hne]; [auto|]. apply Hfw. lia.
Qed.

Lemma rounds_len k : forall t f, (forall i, t <= i < t + k -> rwf C L i (f i)) ->
  length (concat (map (fun i => renc C L i (f i)) (seq t k))) = list_sum (map (plen C L) (seq t k)).
Proof.
  induction k as [|k IH]; intros t f Hf; [reflexivity|]. cbn [seq map concat]. rewrite app_length.
  rewrite renc_len by (apply Hf; lia). rewrite IH by (intros i Hi; apply Hf; lia). reflexivity.
Qed.

(** The length of a signature. *)
Definition slen : nat :=
  dg + sl + length (rvs T C) * sz + length (mrvs T (others P C)) * dg + list_sum (map (plen C L) (seq 0 T)).

End CL.

Lemma enc3_len s : sig3_raw s -> length (enc3 s) = slen (g_challengeC s) (g_challengeP s).
Proof.
  intros (H1 & H2 & H3 & H4 & H5 & H6 & H7). unfold enc3, slen. rewrite !app_length, H1, H2, H4, H5.
  rewrite (rounds_len _ _ T 0 (fun t => nth t (g_proofs s) None)) by (intros; apply H7; lia). lia.
Qed.

Lemma sround_ok s t : sig3_raw s -> t < T ->
  serialize2_round P s t = Ok (renc (g_challengeC s) (g_challengeP s) t (nth t (g_proofs s) None)).
Proof.
  intros (H1 & H2 & H3 & H4 & H5 & H6 & H7) Ht. specialize (H7 t Ht). unfold serialize2_round, renc, rwf in *.
  destruct (contains (g_challengeC s) t) eqn:Ec; [|reflexivity].
  destruct H7 as (q & Hq & (Q1 & Q2 & Q3 & Q4 & Q5 & _) & _). unfold rd_proof.
  rewrite (rd_ok _ t None) by lia. rewrite Hq. cbn [bind]. apply contains_In in Ec.
  destruct (unopened_party_ok P _ _ t H3 Ec) as [-> _]. cbn [bind]. rewrite (w3_N P HP3). change (16 - 1) with 15.
  rewrite !slice_all by auto.
  destruct (party _ _ t =? 15); cbn [negb bind]; reflexivity.
Qed.

Lemma serialize2_ok s buf len : sig3_raw s -> len <= length buf ->
  serializeSignature2 P s buf len =
  Ok (if len <? length (enc3 s) then None
      else Some (length (enc3 s), enc3 s ++ skipn (length (enc3 s)) buf)).
Proof.
  intros Hs Hl. pose proof Hs as (H1 & H2 & H3 & H4 & H5 & H6 & H7). unfold serializeSignature2. fold T.
  rewrite (mapM_seq_pure T 0 _ (plen (g_challengeC s) (g_challengeP s))).
  2:{ intros t Ht. specialize (H7 t ltac:(lia)). unfold rwf in H7.
      destruct (contains (g_challengeC s) t) eqn:Ec.
      - destruct H7 as (q & Hq & (Q1 & _) & _). unfold rd_proof. rewrite (rd_ok _ t None) by lia. rewrite Hq. cbn [bind].
        rewrite Q1. apply plen_ok. auto.
      - unfold plen. rewrite Ec. reflexivity. }
  cbn [bind].
  assert (Hlen : digestSizeBytes P + saltSizeBytes P + length (g_iSeedInfo s) + length (g_cvInfo s) +
     list_sum (map (plen (g_challengeC s) (g_challengeP s)) (seq 0 T)) = length (enc3 s)).
  { rewrite enc3_len by auto. unfold slen. rewrite H4, H5. fold dg sl. lia. }
  rewrite Hlen. destruct (Nat.ltb_spec len (length (enc3 s))) as [Hlt|Hge]; [reflexivity|].
  rewrite !slice_all by auto. cbn [bind].
  rewrite (mapM_seq_pure T 0 _ (fun t => renc (g_challengeC s) (g_challengeP s) t (nth t (g_proofs s) None)))
    by (intros t Ht; apply sround_ok; auto; lia). cbn [bind]. fold (enc3 s).
  rewrite blit_ok by lia. reflexivity.
Qed.

Variable E : env.
Hypothesis HE : env_bytes_ok E.

Definition all_pads (s : signature2) : bool :=
  forallb (fun t => rpad (g_challengeC s) (g_challengeP s) t (nth t (g_proofs s) None)) (seq 0 T).

Lemma seedInfo_size : revealSeedsSize P 16 [0] = Ok (4 * sz).
Proof.
  rewrite (revealSize P 16 ltac:(lia)) by (repeat constructor; lia). rewrite rvs16 by lia. reflexivity.
Qed.

(** What the reader does once the challenge is known. *)
Lemma deser_head fuel sg C L : dg + sl <= length sg -> chal_wf P C L ->
  expandChallengeHash E P fuel (firstn dg sg) = Ok (C, L) ->
  length sg <> slen C L -> deserializeSignature2 E P fuel sg = Ok None.
Proof.
  intros Hl Hw He Hne. unfold deserializeSignature2. fold T dg sl. replace (length sg <? dg + sl) with false by lia.
  rewrite slice0_ok by lia. rewrite slice_ok by lia. cbn [bind]. rewrite He. cbn [bind].
  pose proof Hw as (W1 & W2 & W3 & _).
  rewrite (revealSize P T HT C W3). cbn [bind]. rewrite getMissingLeavesList_ok by auto. cbn [bind].
  rewrite revealMSize by (apply others_lt). cbn [bind]. rewrite (w3_N P HP3), seedInfo_size. cbn [bind].
  rewrite (mapM_seq_pure T 0 _ (plen C L)) by (intros; apply plen_ok; auto). cbn [bind].
  replace (length sg =? _) with false; [reflexivity|]. symmetry. apply Nat.eqb_neq. unfold slen in Hne. fold sz. exact Hne.
Qed.

Lemma deser_enc fuel s : sig3_raw s ->
  expandChallengeHash E P fuel (g_challengeHash s) = Ok (g_challengeC s, g_challengeP s) ->
  deserializeSignature2 E P fuel (enc3 s) = Ok (if all_pads s then Some s else None).
Proof.
  intros Hs He. pose proof (enc3_len s Hs) as Hlen. pose proof Hs as (H1 & H2 & H3 & H4 & H5 & H6 & H7).
  set (C := g_challengeC s) in *. set (L := g_challengeP s) in *.
  unfold deserializeSignature2. fold T dg sl. replace (length (enc3 s) <? dg + sl) with false.
  2:{ unfold slen in Hlen. lia. }
  set (tl := concat (map (fun t => renc C L t (nth t (g_proofs s) None)) (seq 0 T))).
  assert (Henc : enc3 s = g_challengeHash s ++ g_salt s ++ g_iSeedInfo s ++ g_cvInfo s ++ tl) by reflexivity.
  rewrite Henc at 1. rewrite slice_app1 by auto. cbn [bind].
  rewrite Henc at 1. rewrite slice_app_off by auto. cbn [bind]. rewrite He. cbn [bind].
  pose proof H3 as (W1 & W2 & W3 & _).
  rewrite (revealSize P T HT C W3). cbn [bind]. rewrite getMissingLeavesList_ok by auto. cbn [bind].
  rewrite revealMSize by (apply others_lt). cbn [bind]. rewrite (w3_N P HP3), seedInfo_size. cbn [bind].
  rewrite (mapM_seq_pure T 0 _ (plen C L)) by (intros; apply plen_ok; auto). cbn [bind].
  replace (length (enc3 s) =? _) with true.
  2:{ symmetry. apply Nat.eqb_eq. rewrite Hlen. unfold slen. fold sz. lia. }
  cbn [negb]. fold sz.
  rewrite Henc at 1. rewrite (app_assoc (g_challengeHash s)).
  rewrite (slice_app_off (g_challengeHash s ++ g_salt s)) by (rewrite ?app_length; auto; lia). cbn [bind].
  rewrite Henc at 1. rewrite (app_assoc (g_challengeHash s)), (app_assoc _ (g_iSeedInfo s)).
  rewrite (slice_app_off ((g_challengeHash s ++ g_salt s) ++ g_iSeedInfo s)) by (rewrite ?app_length; auto; lia). cbn [bind].
  rewrite Henc at 1. rewrite (app_assoc (g_challengeHash s)), (app_assoc _ (g_iSeedInfo s)), (app_assoc _ (g_cvInfo s)).
  replace (dg + sl + length (rvs T C) * sz + length (mrvs T (others P C)) * dg)
    with (length (((g_challengeHash s ++ g_salt s) ++ g_iSeedInfo s) ++ g_cvInfo s)).
  2:{ rewrite !app_length. lia. }
  unfold tl. rewrite (drounds_ok C L H3) by (intros; apply H7; lia). cbn [bind].
  fold (all_pads s). unfold all_pads. fold C L.
  destruct (forallb _ _); [|reflexivity]. do 2 f_equal. destruct s as [y1 y2 y3 y4 y5 y6 y7]; cbn [g_salt g_iSeedInfo g_cvInfo g_challengeHash g_challengeC g_challengeP g_proofs] in *.
  unfold C, L. f_equal. rewrite <- H6. apply map_seq_nth.
Qed.

(** The reader on an arbitrary string. *)
Lemma deser_cases fuel sg : bytes_ok sg ->
  (length sg < dg + sl /\ deserializeSignature2 E P fuel sg = Ok None) \/
  (dg + sl <= length sg /\ expandChallengeHash E P fuel (firstn dg sg) = NoFuel /\
     deserializeSignature2 E P fuel sg = NoFuel) \/
  (exists C L, dg + sl <= length sg /\ expandChallengeHash E P fuel (firstn dg sg) = Ok (C, L) /\
     chal_wf P C L /\
     ((length sg <> slen C L /\ deserializeSignature2 E P fuel sg = Ok None) \/
      exists s, sig3_raw s /\ sg = enc3 s /\ g_challengeC s = C /\ g_challengeP s = L /\
        g_challengeHash s = firstn dg sg /\
        deserializeSignature2 E P fuel sg = Ok (if all_pads s then Some s else None))).
Proof.
  intros Hb. destruct (Nat.lt_ge_cases (length sg) (dg + sl)) as [Hl|Hl].
  - left. split; [auto|]. unfold deserializeSignature2. fold dg sl. replace (length sg <? dg + sl) with true by lia. reflexivity.
  - right. pose proof (expandChallengeHash_ok E P HP3 HE fuel (firstn dg sg)) as Hx.
    fold dg in Hx. specialize (Hx ltac:(rewrite firstn_length; lia)).
    destruct (expandChallengeHash E P fuel (firstn dg sg)) as [[C L]| | |] eqn:He; cbn [okf fst snd] in Hx; try contradiction.
    + right. exists C, L. repeat (split; [solve [auto]|]).
      destruct (Nat.eq_dec (length sg) (slen C L)) as [Hs|Hne].
      2:{ left. split; [auto|]. apply (deser_head fuel sg C L); auto. }
      right. unfold slen in Hs.
      destruct (cut_app sg dg) as (h & b1 & Hsg & L1); [lia|]. subst sg.
      rewrite app_length in Hs. apply Forall_app_l in Hb. destruct Hb as [_ Hb].
      destruct (cut_app b1 sl) as (salt & b2 & -> & L2); [lia|]. rewrite app_length in Hs. apply Forall_app_l in Hb. destruct Hb as [_ Hb].
      destruct (cut_app b2 (length (rvs T C) * sz)) as (iS & b3 & -> & L3); [lia|]. rewrite app_length in Hs. apply Forall_app_l in Hb. destruct Hb as [_ Hb].
      destruct (cut_app b3 (length (mrvs T (others P C)) * dg)) as (cv & b4 & -> & L4); [lia|]. rewrite app_length in Hs. apply Forall_app_l in Hb. destruct Hb as [_ Hb].
      destruct (rounds_cut C L T 0 b4) as (f & -> & Hf); [lia|auto|].
      assert (Hfh : firstn dg (h ++ salt ++ iS ++ cv ++ concat (map (fun i => renc C L i (f i)) (seq 0 T))) = h).
      { rewrite <- L1. rewrite firstn_app, Nat.sub_diag, firstn_all, firstn_O, app_nil_r. reflexivity. }
      set (s := mkSig2 salt iS cv h C L (map f (seq 0 T))).
      assert (Hraw : sig3_raw s).
      { unfold sig3_raw. cbn [s g_salt g_iSeedInfo g_cvInfo g_challengeHash g_challengeC g_challengeP g_proofs].
        repeat (split; [solve [auto]|]). split; [rewrite map_length, seq_length; auto|].
        intros t Ht. rewrite nth_map_seq by auto. apply Hf. lia. }
      assert (Henc : h ++ salt ++ iS ++ cv ++ concat (map (fun i => renc C L i (f i)) (seq 0 T)) = enc3 s).
      { unfold enc3. cbn [s g_salt g_iSeedInfo g_cvInfo g_challengeHash g_challengeC g_challengeP g_proofs].
        do 4 f_equal. f_equal. apply map_ext_in. intros t Ht. apply in_seq in Ht. rewrite nth_map_seq by lia. reflexivity. }
      exists s. rewrite Hfh in He. rewrite Hfh. rewrite Henc. repeat (split; [solve [auto]|]).
      apply deser_enc; auto.
    + left. repeat (split; [solve [auto]|]). unfold deserializeSignature2. fold dg sl T. replace (length sg <? dg + sl) with false by lia.
      rewrite slice0_ok by lia. rewrite slice_ok by lia. cbn [bind]. rewrite He. reflexivity.
Qed.

End C.
