(** The ZKB++ challenge: a functional description of H3. *)

From Coq Require Import List NArith Arith Bool Lia ZifyBool ZifyNat ZifyN.
From Verif Require Import Base Params Env Spec LowMC Picnic1 Api ApiSpec BaseFacts ParamFacts
  LowMCFacts LowMCInj Hint ZkbMpc Zkb SigSpec ZkbRound ZkbSign.
Import ListNotations.

(** ** Packing bits into bytes *)
Definition pack (len : nat) (f : nat -> bool) : bytes :=
  fold_left (fun b k => set_bit b k (f k)) (seq 0 (8 * len)) (zeros len).

Lemma pack_spec len f :
  length (pack len f) = len /\ bytes_ok (pack len f) /\
  forall k, bit (pack len f) k = if k <? 8 * len then f k else false.
Proof.
  unfold pack.
  assert (H : forall m i b, i + m <= 8 * len -> length b = len -> bytes_ok b ->
    let r := fold_left (fun b k => set_bit b k (f k)) (seq i m) b in
    length r = len /\ bytes_ok r /\
    forall k, bit r k = if (i <=? k) && (k <? i + m) then f k else bit b k).
  { induction m as [|m IH]; intros i b Hi Hl Hb; cbn [seq fold_left].
    - split; [auto|split; [auto|]]. intros k. destruct ((i <=? k) && (k <? i + 0)) eqn:Hk; auto. lia.
    - assert (Hi8 : i / 8 < length b) by (apply lt_div8; lia).
      destruct (IH (S i) (set_bit b i (f i))) as (H1 & H2 & H3); try lia.
      + rewrite length_set_bit; auto.
      + apply bytes_ok_set_bit; auto.
      + split; [auto|split; [auto|]]. intros k. rewrite H3, bit_set_bit by auto.
        destruct (Nat.eqb_spec k i) as [->|Hne].
        * replace ((S i <=? i) && (i <? S i + m)) with false by lia.
          replace ((i <=? i) && (i <? i + S m)) with true by lia. auto.
        * replace ((S i <=? k) && (k <? S i + m)) with ((i <=? k) && (k <? i + S m)) by lia. auto. }
  destruct (H (8 * len) 0 (zeros len)) as (H1 & H2 & H3); auto.
  - apply length_zeros.
  - apply bytes_ok_zeros.
  - split; [auto|split; [auto|]]. intros k. rewrite H3, bit_zeros. reflexivity.
Qed.

Lemma pack_unique b len f :
  length b = len -> bytes_ok b -> (forall k, k < 8 * len -> bit b k = f k) -> b = pack len f.
Proof.
  intros Hl Hb Hf. destruct (pack_spec len f) as (H1 & H2 & H3).
  apply bits_ext; auto; [congruence|]. intros i Hi. rewrite Hl in Hi. rewrite H3, Hf by auto.
  replace (i <? 8 * len) with true by lia. auto.
Qed.

(** The trit stored for round [i], and the number the code reads. *)
Definition chalv (c : bytes) (i : nat) : nat :=
  (if bit c (2 * i + 1) then 2 else 0) + (if bit c (2 * i) then 1 else 0).

Lemma getChallenge_ok c i : 2 * i + 1 < 8 * length c -> getChallenge c i = Ok (chalv c i).
Proof.
  intros H. unfold getChallenge. rewrite !getBit_ok by (apply lt_div8; lia). reflexivity.
Qed.

(** ** Rejection sampling *)
Section C.
Variable E : env.
Variable P : paramset.

Let T := numMPCRounds P.

(** The bit pairs of a digest that are trits, in order. *)
Definition good_pairs (h : bytes) : list N := filter (fun p => (p <? 3)%N) (bit_pairs h).

(** The first [need] trits of the sequence of digests h, H1(h), H1(H1(h)), ...; [None] when
    [fuel] digests do not suffice. *)
Fixpoint trits (fuel : nat) (h : bytes) (need : nat) : option (list N) :=
  match fuel with
  | O => None
  | S fuel' =>
      let g := good_pairs h in
      if need <=? length g then Some (firstn need g)
      else option_map (app g) (trits fuel' (hash E P HASH_PREFIX_1 [h] (digestSizeBytes P))
                                     (need - length g))
  end.

Definition chal_of (ts : list N) : bytes :=
  pack (numBytes (2 * T))
    (fun k => (k <? 2 * T) && N.testbit (nth (k / 2) ts 0%N) (N.of_nat (k mod 2))).

(** [c'] is [c] with the trits [ts] written from position [r]. *)
Definition written (c : bytes) (r : nat) (ts : list N) (c' : bytes) : Prop :=
  length c' = length c /\ (bytes_ok c -> bytes_ok c') /\
  forall k, bit c' k = if (2 * r <=? k) && (k <? 2 * (r + length ts))
                       then N.testbit (nth (k / 2 - r) ts 0%N) (N.of_nat (k mod 2))
                       else bit c k.

Lemma written_nil c r : written c r [] c.
Proof.
  split; [auto|split; [auto|]]. intros k.
  replace ((2 * r <=? k) && (k <? 2 * (r + length (@nil N)))) with false by (simpl; lia). auto.
Qed.

Lemma written_app a b c r ts us :
  written a r ts b -> written b (r + length ts) us c -> written a r (ts ++ us) c.
Proof.
  intros (A1 & A2 & A3) (B1 & B2 & B3). split; [congruence|split; [auto|]].
  intros k. rewrite B3, A3, app_length.
  assert (Hk : k = 2 * (k / 2) + k mod 2) by (apply Nat.div_mod; lia).
  assert (Hm : k mod 2 < 2) by (apply Nat.mod_upper_bound; lia).
  set (q := k / 2) in *.
  destruct ((2 * (r + length ts) <=? k) && (k <? 2 * (r + length ts + length us))) eqn:H1.
  - replace ((2 * r <=? k) && (k <? 2 * (r + (length ts + length us)))) with true by lia.
    rewrite app_nth2 by lia. do 2 f_equal. lia.
  - destruct ((2 * r <=? k) && (k <? 2 * (r + length ts))) eqn:H2.
    + replace ((2 * r <=? k) && (k <? 2 * (r + (length ts + length us)))) with true by lia.
      rewrite app_nth1 by lia. auto.
    + replace ((2 * r <=? k) && (k <? 2 * (r + (length ts + length us)))) with false by lia. auto.
Qed.

Lemma setChallenge_written c r t :
  2 * r + 1 < 8 * length c -> ok (setChallenge c r t) (written c r [t]).
Proof.
  intros H. unfold setChallenge.
  assert (H0 : (2 * r) / 8 < length c) by (apply lt_div8; lia).
  assert (H1 : (2 * r + 1) / 8 < length c) by (apply lt_div8; lia).
  rewrite setBit_ok by auto. cbn [bind]. rewrite setBit_ok by (rewrite length_set_bit; auto).
  cbn [ok]. rewrite !land_1_eqb, N.shiftr_spec'. simpl (0 + 1)%N.
  split; [rewrite !length_set_bit; auto|]. split; [intros; repeat apply bytes_ok_set_bit; auto|].
  intros k. rewrite !bit_set_bit by (rewrite ?length_set_bit; auto). cbn [length].
  assert (Hk : k = 2 * (k / 2) + k mod 2) by (apply Nat.div_mod; lia).
  assert (Hm : k mod 2 < 2) by (apply Nat.mod_upper_bound; lia).
  set (q := k / 2) in *.
  destruct ((2 * r <=? k) && (k <? 2 * (r + 1))) eqn:Hc.
  - replace (q - r) with 0 by lia. cbn [nth].
    destruct (Nat.eqb_spec k (2 * r + 1)) as [He|He].
    + replace (k mod 2) with 1 by lia. reflexivity.
    + replace (k =? 2 * r) with true by lia. replace (k mod 2) with 0 by lia. reflexivity.
  - replace (k =? 2 * r + 1) with false by lia. replace (k =? 2 * r) with false by lia. auto.
Qed.

Lemma H3_scan_spec pairs c r :
  r < T -> 2 * T <= 8 * length c ->
  let g := filter (fun p => (p <? 3)%N) pairs in
  ok (H3_scan P pairs c r) (fun '(c', r', d) =>
    written c r (firstn (T - r) g) c' /\ d = (T - r <=? length g) /\
    r' = r + Nat.min (T - r) (length g)).
Proof.
  revert c r. induction pairs as [|p ps IH]; intros c r Hr Hc; cbn [H3_scan filter].
  - cbv zeta. rewrite firstn_nil. cbn [ok length]. split; [apply written_nil|]. split; lia.
  - destruct (N.ltb_spec p 3) as [Hp|Hp].
    2:{ apply IH; auto. }
    cbv zeta. eapply ok_step; [apply setChallenge_written; lia|]. intros c1 Hw.
    cbv beta in Hw. pose proof Hw as (Hl1 & _).
    destruct (Nat.eqb_spec (S r) (numMPCRounds P)) as [He|He].
    + cbn [ok]. replace (T - r) with 1 by (unfold T; lia). cbn [firstn length].
      split; [auto|]. split; [reflexivity|]. lia.
    + specialize (IH c1 (S r) ltac:(unfold T; lia) ltac:(rewrite Hl1; auto)). cbv zeta in IH.
      eapply ok_mono; [exact IH|]. intros [[c' r'] d] (A & B & C).
      replace (T - r) with (S (T - S r)) by (unfold T in *; lia). cbn [firstn length].
      split; [|split].
      * change (p :: ?l) with ([p] ++ l). eapply written_app; [exact Hw|].
        cbn [length]. replace (r + 1) with (S r) by lia. exact A.
      * rewrite B. reflexivity.
      * rewrite C. lia.
Qed.

Lemma H3_loop_spec fuel : forall h c r,
  r < T -> 2 * T <= 8 * length c ->
  match trits fuel h (T - r) with
  | None => H3_loop E P fuel h c r = NoFuel
  | Some ts => length ts = T - r /\ Forall (fun t => (t < 3)%N) ts /\
               ok (H3_loop E P fuel h c r) (written c r ts)
  end.
Proof.
  induction fuel as [|fuel IH]; intros h c r Hr Hc; cbn [trits H3_loop]; auto.
  pose proof (H3_scan_spec (bit_pairs h) c r Hr Hc) as Hs. cbv zeta in Hs.
  fold (good_pairs h) in Hs.
  assert (Hg : Forall (fun t => (t < 3)%N) (good_pairs h)).
  { apply Forall_forall. intros t Ht. apply filter_In in Ht. lia. }
  destruct (H3_scan P (bit_pairs h) c r) as [[[c' r'] d]| | |]; cbn [ok] in Hs; try contradiction.
  destruct Hs as (Hw & -> & ->). cbn [bind].
  destruct (Nat.leb_spec (T - r) (length (good_pairs h))) as [Hle|Hgt].
  - split; [rewrite firstn_length; lia|]. split; [apply Forall_firstn; auto|exact Hw].
  - set (g := good_pairs h) in *. rewrite Nat.min_r by lia.
    rewrite firstn_all2 in Hw by lia.
    specialize (IH (hash E P HASH_PREFIX_1 [h] (digestSizeBytes P)) c' (r + length g)
                  ltac:(lia) ltac:(destruct Hw as (Hl & _); rewrite Hl; auto)).
    replace (T - (r + length g)) with (T - r - length g) in IH by lia.
    destruct (trits fuel _ (T - r - length g)) as [ts|]; cbn [option_map]; auto.
    destruct IH as (Hl & Hf & Ho). split; [rewrite app_length; lia|].
    split; [apply Forall_app; auto|].
    eapply ok_mono; [exact Ho|]. intros c2 H2. eapply written_app; eauto.
Qed.

Lemma trits_fuel fuel : forall h need ts fuel',
  trits fuel h need = Some ts -> fuel <= fuel' -> trits fuel' h need = Some ts.
Proof.
  induction fuel as [|fuel IH]; intros h need ts fuel' H Hle; [discriminate|].
  destruct fuel' as [|fuel']; [lia|]. cbn [trits] in *.
  destruct (need <=? length (good_pairs h)); auto.
  destruct (trits fuel _ _) as [us|] eqn:Hu; [|discriminate].
  rewrite (IH _ _ us fuel' Hu) by lia. auto.
Qed.

Lemma chal_of_spec ts :
  length (chal_of ts) = numBytes (2 * T) /\ bytes_ok (chal_of ts) /\
  (forall k, 2 * T <= k -> bit (chal_of ts) k = false) /\
  (forall i, i < T -> bit (chal_of ts) (2 * i) = N.testbit (nth i ts 0%N) 0 /\
                      bit (chal_of ts) (2 * i + 1) = N.testbit (nth i ts 0%N) 1).
Proof.
  unfold chal_of. pose proof (pack_spec (numBytes (2 * T))
    (fun k => (k <? 2 * T) && N.testbit (nth (k / 2) ts 0%N) (N.of_nat (k mod 2)))) as (H1 & H2 & H3).
  pose proof (numBytes_spec (2 * T)) as Hn.
  split; [auto|]. split; [auto|]. split.
  - intros k Hk. rewrite H3. replace (k <? 2 * T) with false by lia.
    destruct (k <? _); auto.
  - intros i Hi. rewrite !H3.
    replace (2 * i <? 8 * numBytes (2 * T)) with true by lia.
    replace (2 * i + 1 <? 8 * numBytes (2 * T)) with true by lia.
    replace (2 * i <? 2 * T) with true by lia. replace (2 * i + 1 <? 2 * T) with true by lia.
    replace (2 * i / 2) with i by (rewrite Nat.mul_comm, Nat.div_mul; lia).
    replace ((2 * i) mod 2) with 0 by (rewrite Nat.mul_comm, Nat.mod_mul; lia).
    replace ((2 * i + 1) / 2) with i
      by (rewrite Nat.mul_comm, Nat.div_add_l by lia; change (1 / 2) with 0; lia).
    replace ((2 * i + 1) mod 2) with 1
      by (rewrite Nat.add_comm, Nat.mul_comm, Nat.mod_add by lia; reflexivity).
    auto.
Qed.

Lemma trit_bits t : (t < 3)%N ->
  N.to_nat t = (if N.testbit t 1 then 2 else 0) + (if N.testbit t 0 then 1 else 0).
Proof.
  intros H. assert (t = 0 \/ t = 1 \/ t = 2)%N as [->|[->| ->]] by lia; reflexivity.
Qed.

Lemma chalv_chal_of ts i : i < T -> length ts = T -> Forall (fun t => (t < 3)%N) ts ->
  chalv (chal_of ts) i = N.to_nat (nth i ts 0%N) /\ chalv (chal_of ts) i < 3.
Proof.
  intros Hi Hl Hf. unfold chalv. destruct (chal_of_spec ts) as (_ & _ & _ & H).
  destruct (H i Hi) as [H0 H1]. rewrite H0, H1.
  assert (Ht : (nth i ts 0 < 3)%N).
  { rewrite Forall_forall in Hf. apply Hf, nth_In. lia. }
  rewrite <- trit_bits by auto. split; auto. lia.
Qed.

(** The data hashed to obtain the challenge. *)
Definition chal_input (fo fc fg : nat -> nat -> bytes) (pub pt salt msg : bytes) : bytes :=
  concat (map (fun k => fo k 0 ++ fo k 1 ++ fo k 2) (seq 0 T)) ++
  concat (map (fun k => fc k 0 ++ fc k 1 ++ fc k 2) (seq 0 T)) ++
  (if is_UR (transf P)
   then concat (map (fun k => fg k 0 ++ fg k 1 ++ fg k 2) (seq 0 T)) else []) ++
  firstn (stateSizeBytes P) pub ++ firstn (stateSizeBytes P) pt ++ salt ++ msg.

Definition chal_hash (inp : bytes) : bytes :=
  hash E P HASH_PREFIX_1 [inp] (digestSizeBytes P).

Lemma chal_input_ext fo fc fg fo' fc' fg' pub pt pub' pt' salt msg :
  (forall k j, k < T -> j < 3 -> fo k j = fo' k j) ->
  (forall k j, k < T -> j < 3 -> fc k j = fc' k j) ->
  (is_UR (transf P) = true -> forall k j, k < T -> j < 3 -> fg k j = fg' k j) ->
  firstn (stateSizeBytes P) pub = firstn (stateSizeBytes P) pub' ->
  firstn (stateSizeBytes P) pt = firstn (stateSizeBytes P) pt' ->
  chal_input fo fc fg pub pt salt msg = chal_input fo' fc' fg' pub' pt' salt msg.
Proof.
  intros Ho Hc Hg Hp Ht. unfold chal_input. rewrite Hp, Ht.
  f_equal; [f_equal; apply map_ext_in|f_equal; [f_equal; apply map_ext_in|f_equal]].
  - intros k Hk. apply in_seq in Hk. rewrite !Ho by lia. auto.
  - intros k Hk. apply in_seq in Hk. rewrite !Hc by lia. auto.
  - destruct (is_UR (transf P)); auto. f_equal. apply map_ext_in.
    intros k Hk. apply in_seq in Hk. rewrite !Hg by (auto; lia). auto.
Qed.

Hypothesis HP1 : wfP1 P.

(** Prefixes of the buffers held in a list of triples. *)
Definition holds (lens : nat -> nat) (l : list (tri bytes)) (f : nat -> nat -> bytes) : Prop :=
  length l = T /\
  forall k t, nth_error l k = Some t -> forall j, j < 3 ->
    lens j <= length (tget t j) /\ firstn (lens j) (tget t j) = f k j.

Lemma H3_spec fuel pub pt vo cm gs chal salt msg fo fc fg :
  holds (fun _ => stateSizeBytes P) vo fo ->
  holds (fun _ => digestSizeBytes P) cm fc ->
  (is_UR (transf P) = true -> holds (G_len P) gs fg) ->
  stateSizeBytes P <= length pub -> stateSizeBytes P <= length pt ->
  length salt = saltSizeBytes P ->
  length chal = numBytes (2 * T) -> bytes_ok chal ->
  match trits fuel (chal_hash (chal_input fo fc fg pub pt salt msg)) T with
  | None => H3 E P fuel pub pt vo cm chal salt msg gs = NoFuel
  | Some ts => length ts = T /\ Forall (fun t => (t < 3)%N) ts /\
               H3 E P fuel pub pt vo cm chal salt msg gs = Ok (chal_of ts)
  end.
Proof.
  intros [Lo Ho] [Lc Hc] Hg Hpub Hpt Hsalt Hcl Hcb.
  pose proof (w1_T P HP1) as HT. fold T in HT. pose proof (numBytes_spec (2 * T)) as Hn.
  unfold H3, H3_input. rewrite (Nat.mul_comm (numMPCRounds P) 2). fold T.
  assert (Hlast : numBytes (2 * T) - 1 < length chal) by lia.
  rewrite wr_ok by auto. cbn [bind].
  set (chal0 := list_set chal (numBytes (2 * T) - 1) 0%N).
  rewrite (mapM_seq_pure T 0 _ (fun k => fo k 0 ++ fo k 1 ++ fo k 2)).
  2:{ intros k Hk. destruct (nth_error vo k) as [t|] eqn:Ht.
      2:{ apply nth_error_None in Ht. lia. }
      rewrite (rd_some _ _ _ Ht). cbn [bind].
      pose proof (Ho k t Ht) as H. destruct t as [[a b] c]. unfold tri_chunks.
      destruct (H 0 ltac:(lia)) as [L0 E0]. destruct (H 1 ltac:(lia)) as [L1 E1].
      destruct (H 2 ltac:(lia)) as [L2 E2]. cbn [tget] in *.
      rewrite !slice0_ok by auto. cbn [bind]. rewrite E0, E1, E2. auto. }
  cbn [bind].
  rewrite (mapM_seq_pure T 0 _ (fun k => fc k 0 ++ fc k 1 ++ fc k 2)).
  2:{ intros k Hk. destruct (nth_error cm k) as [t|] eqn:Ht.
      2:{ apply nth_error_None in Ht. lia. }
      rewrite (rd_some _ _ _ Ht). cbn [bind].
      pose proof (Hc k t Ht) as H. destruct t as [[a b] c]. unfold tri_chunks.
      destruct (H 0 ltac:(lia)) as [L0 E0]. destruct (H 1 ltac:(lia)) as [L1 E1].
      destruct (H 2 ltac:(lia)) as [L2 E2]. cbn [tget] in *.
      rewrite !slice0_ok by auto. cbn [bind]. rewrite E0, E1, E2. auto. }
  cbn [bind].
  assert (Hgc : (if is_UR (transf P)
                 then mapM_seq T 0 (fun i => t <- rd gs i ;; G_chunks P t) else Ok []) =
                Ok (if is_UR (transf P)
                    then map (fun k => fg k 0 ++ fg k 1 ++ fg k 2) (seq 0 T) else [])).
  { destruct (is_UR (transf P)) eqn:Hur; auto. destruct (Hg eq_refl) as [Lg Hg'].
    apply mapM_seq_pure. intros k Hk. destruct (nth_error gs k) as [t|] eqn:Ht.
    2:{ apply nth_error_None in Ht. lia. }
    rewrite (rd_some _ _ _ Ht). cbn [bind].
    pose proof (Hg' k t Ht) as H. destruct t as [[a b] c]. unfold G_chunks.
    destruct (H 0 ltac:(lia)) as [L0 E0]. destruct (H 1 ltac:(lia)) as [L1 E1].
    destruct (H 2 ltac:(lia)) as [L2 E2]. cbn [tget] in *.
    assert (G0 : UnruhGWithoutInputBytes P = G_len P 0)
      by (rewrite (w1_Gwo P HP1 Hur); unfold G_len; cbn; lia).
    assert (G2 : UnruhGWithInputBytes P = G_len P 2)
      by (rewrite (w1_Gw P HP1 Hur); unfold G_len; cbn; lia).
    rewrite G0, G2. change (G_len P 1) with (G_len P 0) in L1, E1.
    rewrite !slice0_ok by auto. cbn [bind]. rewrite E0, E1, E2. auto. }
  rewrite Hgc. cbn [bind]. rewrite slice0_ok by auto. cbn [bind].
  rewrite slice0_ok by auto. cbn [bind].
  rewrite slice_all by auto. cbn [bind].
  assert (Hh : hash E P HASH_PREFIX_1
     (map (fun k => fo k 0 ++ fo k 1 ++ fo k 2) (seq 0 T) ++
      map (fun k => fc k 0 ++ fc k 1 ++ fc k 2) (seq 0 T) ++
      (if is_UR (transf P)
       then map (fun k => fg k 0 ++ fg k 1 ++ fg k 2) (seq 0 T) else []) ++
      [firstn (stateSizeBytes P) pub; firstn (stateSizeBytes P) pt; salt; msg])
     (digestSizeBytes P) = chal_hash (chal_input fo fc fg pub pt salt msg)).
  { unfold chal_hash, hash, chal_input. f_equal. f_equal. rewrite !concat_app. cbn [concat].
    rewrite !app_nil_r. do 2 f_equal. f_equal. destruct (is_UR (transf P)); auto. }
  match goal with |- context [H3_loop E P fuel ?x chal0 0] =>
    replace x with (chal_hash (chal_input fo fc fg pub pt salt msg)) by (symmetry; exact Hh) end.
  set (h := chal_hash _).
  assert (Hc0l : length chal0 = numBytes (2 * T)) by (unfold chal0; rewrite length_list_set; auto).
  pose proof (H3_loop_spec fuel h chal0 0 HT ltac:(lia)) as Hloop. rewrite Nat.sub_0_r in Hloop.
  destruct (trits fuel h T) as [ts|]; auto.
  destruct Hloop as (Htl & Htf & Ho'). split; [auto|]. split; [auto|].
  destruct (H3_loop E P fuel h chal0 0) as [c'| | |]; cbn [ok] in Ho'; try contradiction.
  f_equal. destruct Ho' as (W1 & W2 & W3). apply pack_unique.
  - congruence.
  - apply W2. unfold chal0. apply Forall_list_set; auto. unfold byte; lia.
  - intros k Hk. rewrite W3, Htl, Nat.sub_0_r. simpl (2 * 0). simpl (0 <=? k).
    cbn [andb Nat.add]. destruct (Nat.ltb_spec k (2 * T)) as [|Hge]; auto.
    cbn [andb]. unfold chal0, bit. rewrite nth_list_set by lia.
    assert (Hq : k / 8 = numBytes (2 * T) - 1).
    { pose proof (Nat.div_mod k 8 ltac:(lia)). pose proof (mod8_lt k). lia. }
    rewrite Hq, Nat.eqb_refl. apply N.bits_0.
Qed.

End C.
