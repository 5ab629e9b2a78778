(** One round of Picnic3: tapes, commitments, views. *)

From Coq Require Import List NArith Arith Bool Lia ZifyBool ZifyNat ZifyN.
From Verif Require Import Base Params Env Spec LowMC Tree Picnic3 BaseFacts ParamFacts LowMCFacts UtilFacts
  TreeShape TreeSeed TreeReveal TreeOpen TreeTop Hint ZkbMpc ZkbChal P3Tape P3Aux P3Online P3Mask P3Chal.
Import ListNotations.

Local Opaque pack.

(** The value of a computation that is known to succeed. *)
Definition val {A} (d : A) (r : res A) : A := match r with Ok a => a | _ => d end.

Lemma val_ok {A} (d : A) r a : r = Ok a -> val d r = a.
Proof. intros ->. reflexivity. Qed.

Definition leaf16 (t : tree) (i : nat) : bytes := nd t (nF 4 + i).

Section R.
Variable E : env.
Variable P : paramset.

Let n := stateSizeBits P.
Let R := numRounds P.
Let W := stateSizeWords P.
Let sB := stateSizeBytes P.
Let aB := andSizeBytes P.
Let tS := p3_tapeSize P.
Let sz := seedSizeBytes P.
Let sl := saltSizeBytes P.
Let dg := digestSizeBytes P.

Definition tapes_of (salt : bytes) (t : nat) (lf : nat -> bytes) : list bytes :=
  map (fun i => hash E P HASH_PREFIX_NONE [firstn sz (lf i); firstn sl salt; intLE t; intLE i] tS) (seq 0 16).

(** Commitment to the seed (and auxiliary bits) of party [i]. *)
Definition com (salt : bytes) (t : nat) (lf : nat -> bytes) (aux : bytes) (i : nat) : bytes :=
  hash E P HASH_PREFIX_NONE
       [firstn sz (lf i); if i =? 15 then firstn aB aux else []; firstn sl salt; intLE t; intLE i] dg.

Definition row_full (salt : bytes) (t : nat) (lf : nat -> bytes) (aux : bytes) : list bytes :=
  map (com salt t lf aux) (seq 0 16).

Definition row_open (salt : bytes) (t : nat) (lf : nat -> bytes) (aux qC : bytes) (u : nat) : list bytes :=
  map (fun i => if i =? u then firstn dg qC else com salt t lf aux i) (seq 0 16).

Definition ch_of (row : list bytes) : bytes := hash E P HASH_PREFIX_NONE (map (firstn dg) row) dg.

Definition cv_of (input : bytes) (ms : list bytes) : bytes :=
  hash E P HASH_PREFIX_NONE (firstn sB input :: map (firstn aB) ms) dg.

Hypothesis HP3 : wfP3 P.
Let HP := w3_wfP P HP3.
Hypothesis HE : env_bytes_ok E.

Lemma tapes_of_rows salt t lf : rows 16 tS (tapes_of salt t lf).
Proof.
  unfold tapes_of. split; [rewrite map_length, seq_length; reflexivity|].
  intros i Hi. rewrite nth_map_seq by auto. split; [apply hash_length; auto|apply hash_bytesok; auto].
Qed.

Lemma tapes_of_bit salt t lf lf' i p : lf i = lf' i -> i < 16 ->
  tbit (tapes_of salt t lf) i p = tbit (tapes_of salt t lf') i p.
Proof. intros H Hi. unfold tbit, tapes_of. rewrite !nth_map_seq by auto. rewrite H. reflexivity. Qed.

Section S.
Variable seeds : tree.
Hypothesis Hs : shape 16 4 sz seeds.
Let lf := leaf16 seeds.
Variable salt : bytes.
Hypothesis Hsalt : sl <= length salt.
Variable t : nat.

Lemma leaf_len i : i < 16 -> length (lf i) = sz.
Proof.
  intros Hi. unfold lf, leaf16, nd. apply (sh_nl _ _ _ _ Hs). unfold nN, nF. cbn. lia.
Qed.

Lemma leaf_get i : i < 16 -> getLeaf seeds i = Ok (lf i).
Proof. intros Hi. apply (getLeaf_eq 16 4 sz); auto. Qed.

Lemma leaves_get i : i < 16 -> rd (getLeaves seeds) i = Ok (lf i).
Proof.
  intros Hi. unfold getLeaves.
  assert (Hf : firstLeaf seeds = nF 4) by (apply (firstLeaf_eq 16 4 sz); auto).
  rewrite (rd_ok (skipn (firstLeaf seeds) (t_nodes seeds)) i ([] : bytes)) by (rewrite skipn_length, (sh_nodes _ _ _ _ Hs), Hf; unfold nN, nF; cbn; lia).
  rewrite nth_skipn, Hf. reflexivity.
Qed.

Lemma createRandomTapes_ok : createRandomTapes E P (getLeaves seeds) salt t = Ok (mkTapes (tapes_of salt t lf) 0).
Proof.
  unfold createRandomTapes. rewrite (w3_N P HP3). fold sz sl tS.
  rewrite (mapM_seq_pure 16 0 _ (fun i => hash E P HASH_PREFIX_NONE [firstn sz (lf i); firstn sl salt; intLE t; intLE i] tS)).
  - reflexivity.
  - intros i Hi. rewrite leaves_get by lia. cbn [bind].
    rewrite !slice0_ok by (rewrite ?leaf_len; lia). reflexivity.
Qed.

Lemma commit_none i : i < 15 -> commit E P (lf i) None salt t i = Ok (com salt t lf [] i).
Proof.
  intros Hi. unfold commit, com. fold sz sl dg. rewrite slice0_ok by (rewrite leaf_len; lia). cbn [bind].
  rewrite slice0_ok by auto. cbn [bind]. replace (i =? 15) with false by lia. reflexivity.
Qed.

Lemma commit_aux aux : aB <= length aux -> commit E P (lf 15) (Some aux) salt t 15 = Ok (com salt t lf aux 15).
Proof.
  intros Ha. unfold commit, com. fold sz sl dg aB. rewrite slice0_ok by (rewrite leaf_len; lia). cbn [bind].
  rewrite !slice0_ok by auto. cbn [bind]. reflexivity.
Qed.

Lemma com_noaux aux i : i < 15 -> com salt t lf [] i = com salt t lf aux i.
Proof. intros Hi. unfold com. replace (i =? 15) with false by lia. reflexivity. Qed.

Definition skipped (skip : option nat) (j : nat) : bool :=
  match skip with Some u => j =? u | None => false end.

Lemma commit_parties_ok skip row : length row = 16 ->
  ok (commit_parties E P seeds salt t 15 skip row)
     (fun r => length r = 16 /\ forall i, i < 16 ->
        nth i r [] = if (i <? 15) && negb (skipped skip i) then com salt t lf [] i else nth i row []).
Proof.
  intros Hr. unfold commit_parties. eapply ok_mono.
  - apply ok_for with (I := fun k (r : list bytes) => length r = 16 /\ forall i, i < 16 ->
        nth i r [] = if (i <? k) && negb (skipped skip i) then com salt t lf [] i else nth i row []).
    + split; [auto|]. intros i Hi. reflexivity.
    + intros k r Hk [H1 H2]. fold (skipped skip k). destruct (skipped skip k) eqn:Ek.
      * cbn [ok]. split; [auto|]. intros i Hi. rewrite H2 by auto.
        destruct (Nat.eq_dec i k) as [->|Hne].
        -- rewrite Ek. rewrite !andb_false_r. reflexivity.
        -- replace (i <? S k) with (i <? k) by (clear - Hne; lia). reflexivity.
      * rewrite leaf_get by lia. cbn [bind]. rewrite commit_none by lia. cbn [bind].
        rewrite wr_ok by lia. cbn [ok]. split; [rewrite length_list_set; auto|].
        intros i Hi. rewrite nth_list_set by lia. destruct (Nat.eqb_spec i k) as [->|Hne].
        -- replace (k <? S k) with true by (clear; lia). rewrite Ek. reflexivity.
        -- rewrite H2 by auto. replace (i <? S k) with (i <? k) by (clear - Hne; lia). reflexivity.
  - cbv beta. intros r H. exact H.
Qed.

Lemma alloc_row_len : length (alloc_row E P t) = 16.
Proof. unfold alloc_row. rewrite repeat_length. apply (w3_N P HP3). Qed.

Lemma alloc_row_nth i : i < 16 -> nth i (alloc_row E P t) [] = uninit E site_C t dg.
Proof. intros Hi. unfold alloc_row. rewrite (w3_N P HP3). apply nth_repeat_lt. auto. Qed.

(** The buffer for auxiliary bits shared by all rounds. *)
Definition aux_buf (a : bytes) : Prop :=
  length a = MAX_AUX_BYTES /\ bytes_ok a /\ forall p, n * R <= p -> bit a p = false.

Lemma aux_buf_zeros : aux_buf (zeros MAX_AUX_BYTES).
Proof. split; [apply length_zeros|]. split; [apply bytes_ok_zeros|]. intros. apply bit_zeros. Qed.

Lemma aux_firstn tl a : (forall p, bit a p = if p <? n * R then bit (aux_of P tl) p else false) ->
  bytes_ok a -> aB <= length a -> firstn aB a = aux_of P tl.
Proof.
  intros H Hb Hl. destruct (aux_of_spec P HP3 tl) as (A1 & A2 & _ & A4). fold aB n R in A1, A4.
  apply bits_ext; auto.
  - rewrite firstn_length. lia.
  - apply Forall_firstn; auto.
  - intros i Hi. rewrite firstn_length in Hi. rewrite bit_firstn by lia. rewrite H.
    destruct (Nat.ltb_spec i (n * R)); [reflexivity|]. symmetry. apply A4. auto.
Qed.

Lemma getAux_buf tl pos a : rows 16 tS tl -> aux_buf a ->
  exists a', getAuxBits P a (mkTapes tl pos) = Ok a' /\ aux_buf a' /\ firstn aB a' = aux_of P tl.
Proof.
  intros Ht (H1 & H2 & H3). pose proof (aB_nR P HP3) as Ha. fold aB n R in Ha.
  pose proof (w3_aB P HP3) as Hb. fold aB in Hb. unfold MAX_AUX_BYTES in H1.
  pose proof (getAuxBits_ok P HP3 a tl pos Ht) as H. fold n R in H.
  specialize (H ltac:(lia) H2). apply ok_ex in H. destruct H as (a' & He & L & B & Hbit).
  exists a'. split; [auto|].
  assert (Hbit' : forall p, bit a' p = if p <? n * R then bit (aux_of P tl) p else false).
  { intros p. rewrite Hbit. destruct (Nat.ltb_spec p (n * R)); auto. }
  split.
  - split; [unfold MAX_AUX_BYTES; lia|]. split; [auto|]. intros p Hp. rewrite Hbit'.
    replace (p <? n * R) with false by lia. reflexivity.
  - apply aux_firstn; auto. lia.
Qed.

Lemma getAux_zeros tl pos : rows 16 tS tl -> getAuxBits P (zeros aB) (mkTapes tl pos) = Ok (aux_of P tl).
Proof.
  intros Ht. pose proof (aB_nR P HP3) as Ha. fold aB n R in Ha.
  pose proof (getAuxBits_ok P HP3 (zeros aB) tl pos Ht) as H. fold n R in H.
  rewrite length_zeros in H. specialize (H ltac:(lia) (bytes_ok_zeros aB)). apply ok_ex in H.
  destruct H as (a & He & L & B & Hbit). rewrite He. f_equal.
  rewrite <- (firstn_all a), L. apply aux_firstn; auto; [|lia].
  intros p. rewrite Hbit, bit_zeros. reflexivity.
Qed.

Lemma commit_row_ok tl pos a : rows 16 tS tl -> aux_buf a ->
  exists a', commit_row E P seeds (mkTapes tl pos) salt t a = Ok (row_full salt t lf (aux_of P tl), a') /\ aux_buf a'.
Proof.
  intros Ht Ha. unfold commit_row. rewrite (w3_N P HP3). change (16 - 1) with 15.
  pose proof (commit_parties_ok None (alloc_row E P t) alloc_row_len) as H. apply ok_ex in H.
  destruct H as (r & -> & Hl & Hn). cbn [bind].
  destruct (getAux_buf tl pos a Ht Ha) as (a' & -> & Ha' & Hf). cbn [bind].
  rewrite leaf_get by lia. cbn [bind].
  pose proof (w3_aB P HP3) as Hb. fold aB in Hb.
  rewrite commit_aux by (destruct Ha' as [-> _]; unfold MAX_AUX_BYTES; lia). cbn [bind].
  rewrite wr_ok by lia. cbn [bind]. exists a'. split; [|auto]. f_equal. f_equal.
  apply list_ext with ([] : bytes).
  - rewrite length_list_set. unfold row_full. rewrite map_length, seq_length. auto.
  - rewrite length_list_set. intros i Hi. rewrite nth_list_set by lia. unfold row_full.
    rewrite nth_map_seq by lia. destruct (Nat.eqb_spec i 15) as [->|Hne].
    + unfold com. cbn [Nat.eqb]. rewrite Hf.
      rewrite (firstn_all2 (aux_of P tl)); [reflexivity|]. destruct (aux_of_spec P HP3 tl) as (A1 & _). fold aB in A1. lia.
    + rewrite Hn by lia. replace (i <? 15) with true by lia. cbn [skipped negb andb].
      apply com_noaux. lia.
Qed.

Lemma commit_row_open_ok pr u : u < 16 -> length (q_aux pr) = aB -> length (q_C pr) = dg ->
  commit_row_open E P seeds pr salt t u = Ok (row_open salt t lf (q_aux pr) (q_C pr) u).
Proof.
  intros Hu Ha Hc. unfold commit_row_open. rewrite (w3_N P HP3). change (16 - 1) with 15.
  pose proof (commit_parties_ok (Some u) (alloc_row E P t) alloc_row_len) as H. apply ok_ex in H.
  destruct H as (r & -> & Hl & Hn). cbn [bind].
  set (r1 := if 15 =? u then r else list_set r 15 (com salt t lf (q_aux pr) 15)).
  assert (Hr1 : (if negb (15 =? u) then
            leaf <- getLeaf seeds 15 ;;
            c <- commit E P leaf (Some (q_aux pr)) salt t 15 ;;
            wr r 15 c
          else Ok r) = Ok r1).
  { unfold r1. destruct (Nat.eqb_spec 15 u) as [He|He]; cbn [negb]; [reflexivity|].
    rewrite leaf_get by lia. cbn [bind]. rewrite commit_aux by lia. cbn [bind].
    rewrite wr_ok by lia. reflexivity. }
  rewrite Hr1. cbn [bind].
  assert (Hl1 : length r1 = 16) by (unfold r1; destruct (15 =? u); [auto|rewrite length_list_set; auto]).
  fold dg. rewrite slice0_ok by lia. cbn [bind].
  rewrite (rd_ok r1 u []) by lia. cbn [bind].
  assert (Hold : length (nth u r1 []) = dg).
  { unfold r1. destruct (Nat.eqb_spec 15 u) as [He|He].
    - subst u. rewrite Hn by lia. cbn [Nat.ltb Nat.leb andb]. rewrite alloc_row_nth by lia. apply HE.
    - rewrite nth_list_set by lia. replace (u =? 15) with false by lia. rewrite Hn by lia.
      cbn [skipped]. rewrite Nat.eqb_refl. cbn [negb]. rewrite andb_false_r, alloc_row_nth by lia. apply HE. }
  assert (Hfl : length (firstn dg (q_C pr)) = dg) by (rewrite firstn_length; lia).
  rewrite blit_ok by lia. cbn [bind]. rewrite wr_ok by lia. f_equal.
  apply list_ext with ([] : bytes).
  - rewrite length_list_set. unfold row_open. rewrite map_length, seq_length. auto.
  - rewrite length_list_set. intros i Hi. rewrite nth_list_set by lia. unfold row_open.
    rewrite nth_map_seq by lia. destruct (Nat.eqb_spec i u) as [Hiu|Hiu].
    + unfold blit_list. cbn [firstn app]. rewrite Nat.add_0_l, Hfl, (skipn_all2 (nth u r1 [])) by lia.
      apply app_nil_r.
    + unfold r1. destruct (Nat.eqb_spec 15 u) as [He|He].
      * rewrite Hn by lia. replace (i <? 15) with true by lia. cbn [skipped].
        replace (i =? u) with false by lia. cbn [negb andb]. apply com_noaux. lia.
      * rewrite nth_list_set by lia. destruct (Nat.eqb_spec i 15) as [Hi5|Hi5].
        -- subst i. reflexivity.
        -- rewrite Hn by lia. replace (i <? 15) with true by lia. cbn [skipped].
           replace (i =? u) with false by lia. cbn [negb andb]. apply com_noaux. lia.
Qed.

End S.

(** Rows of 16 digests. *)
Definition drow (r : list bytes) : Prop := length r = 16 /\ forall i, i < 16 -> length (nth i r []) = dg.

Lemma com_len salt t lf aux i : length (com salt t lf aux i) = dg.
Proof. apply hash_length. auto. Qed.

Lemma row_full_drow salt t lf aux : drow (row_full salt t lf aux).
Proof.
  unfold row_full. split; [rewrite map_length, seq_length; auto|].
  intros i Hi. rewrite nth_map_seq by auto. apply com_len.
Qed.

Lemma row_open_drow salt t lf aux qC u : length qC = dg -> drow (row_open salt t lf aux qC u).
Proof.
  intros Hq. unfold row_open. split; [rewrite map_length, seq_length; auto|].
  intros i Hi. rewrite nth_map_seq by auto. destruct (i =? u); [rewrite firstn_length; lia|apply com_len].
Qed.

Lemma map_seq_nth {A} (l : list A) d : map (fun i => nth i l d) (seq 0 (length l)) = l.
Proof.
  apply list_ext with d; [rewrite map_length, seq_length; auto|].
  rewrite map_length, seq_length. intros i Hi. rewrite nth_map_seq by auto. reflexivity.
Qed.

Lemma commit_h_ok r : drow r -> commit_h E P r = Ok (ch_of r).
Proof.
  intros [H1 H2]. unfold commit_h, ch_of. rewrite (w3_N P HP3). fold dg.
  rewrite (mapM_seq_pure 16 0 _ (fun i => firstn dg (nth i r []))).
  - cbn [bind]. rewrite <- (map_map (fun i => nth i r []) (firstn dg)).
    rewrite <- H1, map_seq_nth. reflexivity.
  - intros i Hi. rewrite (rd_ok r i []) by lia. cbn [bind]. rewrite slice0_ok by (rewrite H2; lia). reflexivity.
Qed.

Lemma commit_v_ok input ms uo : sB <= length input -> rows 16 aB ms ->
  commit_v E P input (mkMsgs ms (n * R) uo) = Ok (cv_of input ms).
Proof.
  intros Hi [H1 H2]. unfold commit_v, cv_of. rewrite (w3_N P HP3). fold dg sB. cbn [ms_msgs ms_pos].
  rewrite slice0_ok by auto. cbn [bind].
  assert (Hnb : numBytes (n * R) = aB).
  { unfold aB. rewrite (wf_aB P HP), (w3_m P HP3). reflexivity. }
  rewrite Hnb. rewrite (mapM_seq_pure 16 0 _ (fun i => firstn aB (nth i ms []))).
  - cbn [bind]. rewrite <- (map_map (fun i => nth i ms []) (firstn aB)).
    rewrite <- H1, map_seq_nth. reflexivity.
  - intros i Hi'. rewrite (rd_ok ms i []) by lia. cbn [bind].
    rewrite slice0_ok by (rewrite (proj1 (H2 i ltac:(lia))); lia). reflexivity.
Qed.

End R.
