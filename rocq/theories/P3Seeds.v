(** The seed and Merkle trees as Picnic3 uses them. *)

From Coq Require Import List NArith Arith Bool Lia ZifyBool ZifyNat ZifyN.
From Verif Require Import Base Params Env Spec LowMC Tree Picnic3 BaseFacts ParamFacts UtilFacts
  TreeShape TreeSeed TreeReveal TreeOpen TreeMissing TreeMerkle TreeVerify TreeSpec TreeTop
  P3Tape P3Online P3Chal P3Round.
Import ListNotations.

Definition dtree : tree := mkTree 0 [] 0 [] [] 0 0.

(** The nodes revealed when the leaves [hide] of a tree with [n] leaves are hidden. *)
Definition rvs (n : nat) (hide : list nat) : list nat :=
  val [] (t <- createTree n 0 ;; getRevealedNodes t hide).

Definition mrvs (n : nat) (miss : list nat) : list nat :=
  val [] (t <- createTree n 0 ;; getRevealedMerkleNodes t miss).

Lemma small_int k : k <= 1024 * 64 -> exceeds_int k = false.
Proof. intros H. unfold exceeds_int, INT_MAX. apply N.ltb_ge. lia. Qed.

Section N0.
Variable n : nat.
Hypothesis Hn : 2 <= n <= 1024.
Let D := Nat.log2_up n.

Lemma D_small : D < 30.
Proof.
  unfold D. assert (Nat.log2_up n <= Nat.log2_up (2 ^ 10)) by (apply Nat.log2_up_le_mono; apply Hn).
  change (Nat.log2_up (2 ^ 10)) with 10 in H. lia.
Qed.

Lemma n_pow : n <= 2 ^ D.
Proof. apply Nat.log2_up_spec. lia. Qed.

Lemma rvs_ok hide s t : Forall (fun l => l < n) hide -> shape n D s t ->
  getRevealedNodes t hide = Ok (rvs n hide) /\ revealed n D hide (rvs n hide).
Proof.
  intros Hh Ht. pose proof (createTree_ok n D ltac:(lia) eq_refl D_small 0) as H. apply ok_ex in H.
  destruct H as (t0 & He & Hs & _).
  pose proof (revealed_ok n D ltac:(lia) eq_refl D_small hide Hh 0 t0 Hs) as H. apply ok_ex in H.
  destruct H as (rv & Hr & Hr').
  assert (Hv : rvs n hide = rv) by (unfold rvs; rewrite He; cbn [bind]; rewrite Hr; reflexivity).
  rewrite Hv. split; [|auto]. rewrite <- Hr. apply (getRevealedNodes_shape n D hide s 0); auto.
Qed.

Lemma rvs_le hide : Forall (fun l => l < n) hide -> length (rvs n hide) <= n.
Proof.
  intros Hh. pose proof (createTree_ok n D ltac:(lia) eq_refl D_small 0) as H. apply ok_ex in H.
  destruct H as (t0 & He & Hs & _). destruct (rvs_ok hide 0 t0 Hh Hs) as [_ (_ & _ & _ & H)]. exact H.
Qed.

Lemma rvs_bound hide : Forall (fun l => l < n) hide -> hide <> [] -> NoDup hide ->
  length (rvs n hide) <= rbound D (length hide).
Proof.
  intros Hh H1 H2. pose proof (createTree_ok n D ltac:(lia) eq_refl D_small 0) as H. apply ok_ex in H.
  destruct H as (t0 & He & Hs & _). destruct (rvs_ok hide 0 t0 Hh Hs) as [_ (_ & _ & H & _)]. auto.
Qed.

Lemma mrvs_ok miss s t : Forall (fun l => l < n) miss -> shape n D s t ->
  getRevealedMerkleNodes t miss = Ok (mrvs n miss) /\ exists m, mrevealed n D miss m (mrvs n miss).
Proof.
  intros Hh Ht. pose proof (createTree_ok n D ltac:(lia) eq_refl D_small 0) as H. apply ok_ex in H.
  destruct H as (t0 & He & Hs & _).
  destruct (mrevealed_ok n D ltac:(lia) n_pow miss Hh 0 t0 Hs) as (m & rv & Hr & Hr').
  assert (Hv : mrvs n miss = rv) by (unfold mrvs; rewrite He; cbn [bind]; rewrite Hr; reflexivity).
  rewrite Hv. split; [|eauto]. rewrite <- Hr. apply (getRevealedMerkleNodes_shape n D) with (s1 := s) (s2 := 0); auto using n_pow; lia.
Qed.

End N0.

(** One hidden leaf out of 16: four nodes are revealed. *)
Lemma rvs16 u : u < 16 -> length (rvs 16 [u]) = 4.
Proof.
  intros Hu. assert (H : forallb (fun u => length (rvs 16 [u]) =? 4) (seq 0 16) = true) by (vm_compute; reflexivity).
  rewrite forallb_forall in H. specialize (H u). apply Nat.eqb_eq. apply H. apply in_seq. lia.
Qed.

Section T.
Variable E : env.
Variable P : paramset.
Let sz := seedSizeBytes P.
Let sl := saltSizeBytes P.
Let dg := digestSizeBytes P.

Definition sgen (n : nat) (root salt : bytes) (rep : nat) : tree :=
  val dtree (generateSeeds E P n root salt rep).

Definition sopen (n : nat) (t : tree) (hide : list nat) : bytes :=
  concat (map (fun r => firstn sz (nd t r)) (rvs n hide)).

Definition srec (n : nat) (hide : list nat) (info salt : bytes) (rep : nat) : tree :=
  val dtree (t0 <- createTree n sz ;;
             r <- reconstructSeeds E P t0 hide info salt rep ;;
             match r with Some t => Ok t | None => UB end).

Hypothesis HP3 : wfP3 P.
Hypothesis HE : env_bytes_ok E.

Lemma sz_pos : 0 < seedSizeBytes P <= MAX_SEED_SIZE_BYTES.
Proof. pose proof (w3_sd P HP3). unfold MAX_SEED_SIZE_BYTES. lia. Qed.

Section N.
Variable n : nat.
Hypothesis Hn : 2 <= n <= 1024.
Let D := Nat.log2_up n.

Lemma revealSize hide : Forall (fun l => l < n) hide ->
  revealSeedsSize P n hide = Ok (length (rvs n hide) * sz).
Proof.
  intros Hh. pose proof (revealSeedsSize_ok P n D ltac:(lia) eq_refl (D_small n Hn) hide Hh) as H.
  apply ok_ex in H. destruct H as (k & -> & H).
  pose proof (createTree_ok n D ltac:(lia) eq_refl (D_small n Hn) 0) as H0. apply ok_ex in H0.
  destruct H0 as (t0 & He & Hs & _). destruct (H 0 t0 Hs) as (rv & Hr & _ & ->).
  destruct (rvs_ok n Hn hide 0 t0 Hh Hs) as [Hr' _]. rewrite Hr in Hr'. injection Hr' as ->. reflexivity.
Qed.

Lemma sgen_ok root salt rep : sz <= length root -> sl <= length salt ->
  generateSeeds E P n root salt rep = Ok (sgen n root salt rep) /\
  full_seeds E P n D salt rep (firstn sz root) (sgen n root salt rep).
Proof.
  intros Hr Hs. pose proof (generateSeeds_ok E P HE sz_pos n D ltac:(lia) eq_refl (D_small n Hn) salt rep Hs root Hr) as H.
  apply ok_ex in H. destruct H as (t & He & Hf). unfold sgen. rewrite He. cbn [val]. auto.
Qed.

Lemma sgen_shape root salt rep : sz <= length root -> sl <= length salt ->
  shape n D sz (sgen n root salt rep).
Proof. intros Hr Hs. apply (sgen_ok root salt rep Hr Hs). Qed.

Lemma sopen_ok t hide size : Forall (fun l => l < n) hide -> shape n D sz t ->
  n * sz <= size -> size <= 1024 * 64 ->
  revealSeeds P t hide size = Ok (Some (sopen n t hide)).
Proof.
  intros Hh Ht H1 H2. destruct (rvs_ok n Hn hide sz t Hh Ht) as [Hr Hr'].
  pose proof (rvs_le n Hn hide Hh) as Hle. assert (length (rvs n hide) * sz <= n * sz) by (apply Nat.mul_le_mono_r; auto).
  apply (revealSeeds_ok P sz_pos n D ltac:(lia) eq_refl (D_small n Hn) (zeros sl)) with (s := sz); auto.
  - rewrite length_zeros. unfold sl. lia.
  - apply (small_int). auto.
  - fold sz. lia.
Qed.

Lemma sopen_len t hide : Forall (fun l => l < n) hide -> shape n D sz t ->
  length (sopen n t hide) = length (rvs n hide) * sz.
Proof.
  intros Hh Ht. unfold sopen. rewrite (length_concat_const sz).
  - rewrite map_length. reflexivity.
  - intros x Hx. apply in_map_iff in Hx. destruct Hx as (r & <- & Hr).
    destruct (rvs_ok n Hn hide sz t Hh Ht) as [_ (_ & Hin & _)]. apply Hin in Hr.
    apply Rv_ext in Hr; auto; [|lia|apply (n_pow n Hn)]. apply (ext_lt n D) in Hr.
    rewrite firstn_length. unfold nd. rewrite (sh_nl _ _ _ _ Ht) by auto. lia.
Qed.

Lemma srec_ok hide info salt rep : Forall (fun l => l < n) hide -> hide <> [] -> sl <= length salt ->
  length info = length (rvs n hide) * sz ->
  exists t0, createTree n sz = Ok t0 /\
    reconstructSeeds E P t0 hide info salt rep = Ok (Some (srec n hide info salt rep)) /\
    shape n D sz (srec n hide info salt rep).
Proof.
  intros Hh Hne Hs Hl. pose proof (createTree_ok n D ltac:(lia) eq_refl (D_small n Hn) sz) as H. apply ok_ex in H.
  destruct H as (t0 & He & Ht & _ & Hv). exists t0. split; [auto|].
  destruct (rvs_ok n Hn hide sz t0 Hh Ht) as [Hr Hr'].
  pose proof (rvs_le n Hn hide Hh) as Hle. pose proof (w3_sd P HP3) as Hsz. fold sz in Hsz.
  assert (Hi : exceeds_int (length info) = false).
  { apply (small_int). rewrite Hl. assert (length (rvs n hide) * sz <= 1024 * 32) by (apply Nat.mul_le_mono; lia). lia. }
  destruct (reconstructSeeds_ok E P HE sz_pos n D ltac:(lia) eq_refl (D_small n Hn) salt rep Hs hide Hh t0
              (rvs n hide) info Ht Hv Hne Hr Hr' Hl Hi) as (t' & He' & Hs' & _).
  assert (Hsr : srec n hide info salt rep = t') by (unfold srec; rewrite He; cbn [bind]; rewrite He'; reflexivity).
  rewrite Hsr. auto.
Qed.

(** The leaves that are not hidden come back. *)
Lemma srec_gen root salt rep hide : Forall (fun l => l < n) hide -> hide <> [] ->
  sz <= length root -> sl <= length salt ->
  let t := sgen n root salt rep in
  forall l, l < n -> ~ In l hide ->
  nd (srec n hide (sopen n t hide) salt rep) (nF D + l) = nd t (nF D + l).
Proof.
  intros Hh Hne Hro Hs t l Hl Hlh. destruct (sgen_ok root salt rep Hro Hs) as [_ Hf]. fold t in Hf.
  pose proof (createTree_ok n D ltac:(lia) eq_refl (D_small n Hn) sz) as H. apply ok_ex in H.
  destruct H as (t0 & He & Ht & _ & Hv).
  destruct (rvs_ok n Hn hide sz t0 Hh Ht) as [Hr Hr'].
  pose proof (rvs_le n Hn hide Hh) as Hle. pose proof (w3_sd P HP3) as Hsz. fold sz in Hsz.
  assert (Hi : exceeds_int (length (rvs n hide) * sz) = false).
  { apply (small_int). assert (length (rvs n hide) * sz <= 1024 * 32) by (apply Nat.mul_le_mono; lia). lia. }
  destruct (reconstruct_full E P HE sz_pos n D ltac:(lia) eq_refl (D_small n Hn) salt rep Hs hide Hh _ t t0
              (rvs n hide) Hf Ht Hv Hne Hr Hr' Hi) as (t' & He' & Hs' & _ & Hq).
  assert (Hsr : srec n hide (sopen n t hide) salt rep = t').
  { unfold srec. rewrite He. cbn [bind]. unfold sopen. fold sz. fold sz in He'. rewrite He'. reflexivity. }
  rewrite Hsr. apply Hq; auto.
Qed.

End N.

End T.
