(** Concrete Picnic3 executions: cases meeting the hypotheses of the theorems, and counterexamples. *)

From Coq Require Import List NArith Arith Bool Lia ZifyBool ZifyNat ZifyN.
From Verif Require Import Base Params Env Spec LowMC Tree Picnic3 Api ApiSpec SigSpec P3Spec BaseFacts ParamFacts
  LowMCFacts LowMCInj UtilFacts ZkbChal P3Tape P3Aux P3Online P3Mask P3Chal P3Round P3Seeds P3Verify P3Sign
  P3Complete P3Codec P3Ext P3Api P3Uninit P3Bytes P3Props Witness ZkbWitness.
Import ListNotations.

Local Opaque pack.

(** A hash function whose output counts up from the last byte of its input. *)
Definition cnt (o : N) (n : nat) : bytes := map (fun i => N.modulo (o + 1 + N.of_nat i) 256) (seq 0 n).

Definition count_env : env := {|
  xof := fun _ m n => cnt (last m 0%N) n;
  uninit := uninit toy_env;
  LMatrix := LMatrix toy_env;
  LMatrixInv := LMatrixInv toy_env;
  KMatrix := KMatrix toy_env;
  KMatrixInv := KMatrixInv toy_env;
  RConstant := RConstant toy_env
|}.

Lemma cnt_ok o n : length (cnt o n) = n /\ bytes_ok (cnt o n).
Proof.
  unfold cnt. split; [rewrite map_length, seq_length; auto|].
  apply Forall_forall. intros x Hx. apply in_map_iff in Hx. destruct Hx as (k & <- & _).
  apply N.mod_lt. discriminate.
Qed.

Lemma count_env_bytes : env_bytes_ok count_env.
Proof. split; intros; simpl; [apply cnt_ok|apply toy_env_bytes]. Qed.
Lemma count_constants p P : get_param_set p = Some P -> constants_ok count_env P.
Proof. exact (toy_constants_all p P). Qed.
Lemma count_inverses p P : get_param_set p = Some P -> inverses_ok count_env P.
Proof. exact (toy_inverses_all p P). Qed.
Lemma const_inverses x p P : get_param_set p = Some P -> inverses_ok (const_env x) P.
Proof. exact (toy_inverses_all p P). Qed.

Definition count_expands_b (p : N) (P : paramset) : bool :=
  negb (is_picnic3 p) ||
  forallb (fun o => match expandChallengeHash count_env P 30 (cnt (N.of_nat o) (digestSizeBytes P)) with
                    | Ok _ => true
                    | _ => false
                    end) (seq 0 4).

Lemma count_expands p P o : get_param_set p = Some P -> is_picnic3 p = true -> (o < 4)%N ->
  exists CL, expandChallengeHash count_env P 30 (cnt o (digestSizeBytes P)) = Ok CL.
Proof.
  intros HP H3 Ho.
  assert (H : count_expands_b p P = true).
  { revert p P HP H3. intros p P HP _. revert p P HP. apply (params_forall count_expands_b). vm_compute. reflexivity. }
  unfold count_expands_b in H. rewrite H3 in H. cbn [negb orb] in H.
  rewrite forallb_forall in H. specialize (H (N.to_nat o)). rewrite in_seq in H. specialize (H ltac:(lia)).
  rewrite N2Nat.id in H. destruct (expandChallengeHash _ _ _ _) as [CL| | |]; try discriminate. exists CL. reflexivity.
Qed.

Lemma last_app2 {A} (a b : list A) d : b <> [] -> last (a ++ b) d = last b d.
Proof.
  intros Hb. induction a as [|x a IH]; [reflexivity|]. cbn [app last].
  destruct (a ++ b) as [|y l] eqn:Eab; [|exact IH].
  apply app_eq_nil in Eab. destruct Eab. contradiction.
Qed.

(** The setup shared by the examples. *)
Lemma p3_setup p P : get_param_set p = Some P ->
  env_bytes_ok count_env /\ env_bytes_ok (with_uninit count_env (fun _ _ n => repeat 7%N n)) /\
  constants_ok count_env P /\ inverses_ok count_env P /\ sk_wf (toy_sk p) /\ sk_params (toy_sk p) = p /\
  pk_wf (toy_pk p) /\ pk_params (toy_pk p) = p /\ pk_of P (toy_sk p) (toy_pk p) /\
  lowmc_relation count_env P (sk_data (toy_sk p)) (pk_plaintext (sk_pk (toy_sk p)))
    (pk_ciphertext (sk_pk (toy_sk p))) /\
  length (zeros (sig_size p)) = sig_size p.
Proof.
  intros HP. destruct (toy_sk_facts p P HP) as (Hs & Hw & Hz & Hr & Hpw & Hpk).
  split; [exact count_env_bytes|]. split.
  { destruct count_env_bytes as [A B]. split; [exact A|].
    intros. split; [apply repeat_length|]. apply bytes_ok_repeat. reflexivity. }
  split; [apply (count_constants p P HP)|]. split; [apply (count_inverses p P HP)|]. split; [exact Hw|]. split; [exact Hs|].
  split; [exact Hpw|]. split; [destruct Hpk; congruence|].
  split; [exact Hpk|]. split; [exact (Hr 0%N)|apply length_zeros].
Qed.

Lemma count_signs_gen p P sk msg : get_param_set p = Some P -> is_picnic3 p = true -> sk_params sk = p -> sk_wf sk ->
  lowmc_relation count_env P (sk_data sk) (pk_plaintext (sk_pk sk)) (pk_ciphertext (sk_pk sk)) ->
  msg <> [] -> (last msg 0 < 4)%N ->
  exists buf' l, picnic_sign count_env 30 sk msg (zeros (sig_size p)) (sig_size p) = Ok (true, buf', l).
Proof.
  intros HP H3 Hs Hw Hr Hm Hl. pose proof (get_param_set_wfP3 _ _ HP H3) as HP3.
  pose proof (sign3_eq count_env P p HP H3 count_env_bytes (count_constants p P HP) (count_inverses p P HP) 30 sk msg
    (zeros (sig_size p)) (sig_size p) Hs Hw) as H. rewrite length_zeros in H. specialize (H (le_n _)).
  assert (Hp : stateSizeBytes P <= length (pk_ciphertext (sk_pk sk)) /\ bytes_ok (pk_ciphertext (sk_pk sk))).
  { destruct Hw as (_ & _ & Hc). split; [apply (block_len P p HP H3 _ Hc)|apply Hc]. }
  replace (eqb_bytes _ _) with true in H by (symmetry; apply senc_rel; [auto|apply Hp|apply Hp|auto]).
  assert (He : exists CL, schal count_env P 30 sk msg = Ok CL).
  { unfold schal, shash, hcp, hash. cbn [xof count_env].
    rewrite concat_app. cbn [concat]. rewrite !app_nil_r, !app_assoc. rewrite last_app2 by auto.
    apply (count_expands p P); auto. }
  destruct He as [CL He]. rewrite He in H. cbn [bind] in H.
  destruct (picnic_sign _ _ _ _ _ _) as [[[b buf'] l]| | |] eqn:Es; try discriminate.
  destruct (sign3_result count_env P p HP H3 count_env_bytes (count_constants p P HP) (count_inverses p P HP) 30 sk msg
    (zeros (sig_size p)) (sig_size p) b buf' l Hs Hw) as [Hb|Hb]; [rewrite length_zeros; auto|auto| |].
  - destruct Hb as [-> _]. exists buf', l. reflexivity.
  - destruct Hb as (_ & _ & _ & Hb). specialize (Hb Hr). unfold sig_size in Hb. lia.
Qed.

Lemma count_signs p P msg : get_param_set p = Some P -> is_picnic3 p = true ->
  msg <> [] -> (last msg 0 < 4)%N ->
  exists buf' l, picnic_sign count_env 30 (toy_sk p) msg (zeros (sig_size p)) (sig_size p) = Ok (true, buf', l).
Proof.
  intros HP H3 Hm Hl. destruct (p3_setup p P HP) as (_ & _ & _ & _ & A5 & A6 & _ & _ & _ & A10 & _).
  exact (count_signs_gen p P (toy_sk p) msg HP H3 A6 A5 A10 Hm Hl).
Qed.

(** An accepted signature. *)
Lemma count_accepts p P msg : get_param_set p = Some P -> is_picnic3 p = true ->
  msg <> [] -> (last msg 0 < 4)%N ->
  exists sg, bytes_ok sg /\ picnic_verify count_env 30 (toy_pk p) msg sg = Ok true.
Proof.
  intros HP H3 Hm Hl. destruct (p3_setup p P HP) as (A1 & _ & A3 & A4 & A5 & A6 & A7 & A8 & A9 & A10 & A11).
  destruct (count_signs p P msg HP H3 Hm Hl) as (buf' & l & Hs). exists (firstn l buf').
  assert (Hll : sig_size p <= length (zeros (sig_size p))) by (rewrite A11; exact (le_n _)).
  split.
  - apply Forall_firstn. exact (sign3_bytes count_env P A1 p HP H3 A3 A4 30 (toy_sk p) msg (zeros (sig_size p)) (sig_size p)
      true buf' l A6 A5 (bytes_ok_zeros _) Hll Hs).
  - refine (C02_pf count_env (uninit count_env) P 30 30 (toy_sk p) (toy_pk p) msg (zeros (sig_size p)) (sig_size p) buf' l
      _ _ A1 A1 A3 A4 A5 A7 A9 Hll (le_n _) Hs).
    + rewrite A6. exact HP.
    + rewrite A6. exact H3.
Qed.

(** The counting hash only sees the last byte of the message, so one signature is accepted for two messages. *)
Lemma count_msg p P pk msg msg' sg fuel : get_param_set p = Some P -> is_picnic3 p = true ->
  pk_params pk = p -> pk_wf pk -> bytes_ok sg -> msg <> [] -> msg' <> [] -> last msg 0%N = last msg' 0%N ->
  picnic_verify count_env fuel pk msg sg = picnic_verify count_env fuel pk msg' sg.
Proof.
  intros HP H3 Hp W Hb Hm Hm' Hl.
  destruct (verify3_cases count_env P p HP H3 count_env_bytes (count_constants p P HP) (count_inverses p P HP) fuel pk sg Hp W Hb)
    as [H|[[H _]|(s & _ & _ & _ & _ & _ & _ & H)]]; rewrite !H; try reflexivity.
  unfold vresult. f_equal. f_equal. destruct (vmerkle _ _ _ _) as [t|]; [|reflexivity]. f_equal.
  unfold hcp, hash. cbn [xof count_env]. rewrite !concat_app. cbn [concat]. rewrite !app_nil_r, !app_assoc.
  rewrite !last_app2 by auto. rewrite Hl. reflexivity.
Qed.

Lemma count_two p P : get_param_set p = Some P -> is_picnic3 p = true ->
  exists sg, bytes_ok sg /\ picnic_verify count_env 30 (toy_pk p) [1%N; 2%N] sg = Ok true /\
             picnic_verify count_env 30 (toy_pk p) [9%N; 2%N] sg = Ok true.
Proof.
  intros HP H3. destruct (p3_setup p P HP) as (A1 & _ & A3 & A4 & A5 & A6 & A7 & A8 & A9 & A10 & A11).
  destruct (count_accepts p P [1%N; 2%N] HP H3) as (sg & Hb & Hv); [discriminate|reflexivity|].
  exists sg. split; [exact Hb|]. split; [exact Hv|].
  rewrite <- (count_msg p P (toy_pk p) [1%N; 2%N] [9%N; 2%N] sg 30 HP H3 A8 A7 Hb ltac:(discriminate) ltac:(discriminate) eq_refl).
  exact Hv.
Qed.

(** A signature structure that the reader accepts. *)
Lemma count_deser p P : get_param_set p = Some P -> is_picnic3 p = true ->
  exists sg s, bytes_ok sg /\ deserializeSignature2 count_env P 30 sg = Ok (Some s).
Proof.
  intros HP H3. destruct (p3_setup p P HP) as (A1 & _ & A3 & A4 & A5 & A6 & A7 & A8 & A9 & A10 & A11).
  destruct (count_accepts p P [1%N] HP H3) as (sg & Hb & Hv); [discriminate|reflexivity|].
  destruct (verify3_cases count_env P p HP H3 A1 A3 A4 30 (toy_pk p) sg A8 A7 Hb)
    as [H|[[H _]|(s & _ & _ & _ & _ & _ & Hd & H)]].
  - rewrite H in Hv. discriminate.
  - rewrite H in Hv. discriminate.
  - exists sg, s. exact (conj Hb Hd).
Qed.

(** Tapes. *)
Definition toy_tapes (P : paramset) : list bytes :=
  map (fun i => cnt (N.of_nat i * 17) (p3_tapeSize P)) (seq 0 (numMPCParties P)).

Lemma toy_tapes_wf P : tapes_wf P (toy_tapes P).
Proof.
  split; [unfold toy_tapes; rewrite map_length, seq_length; reflexivity|].
  apply Forall_map, Forall_forall. intros i _. apply cnt_ok.
Qed.

(** ** A hash function for which the expansion of the challenge never ends *)
Definition stuck_b (p : N) (P : paramset) : bool :=
  negb (is_picnic3 p) ||
  let bits := ceil_log2_nat (numMPCRounds P) in
  let cap := digestSizeBytes P * 8 / Nat.min bits (ceil_log2_nat (numMPCParties P)) in
  match bitsToChunks bits (repeat 255%N (digestSizeBytes P)) (digestSizeBytes P) cap with
  | Ok l => match scan_C P l [] with Ok [] => true | _ => false end
  | _ => false
  end.

Lemma stuck_loop P bits cap : 0 < numOpenedRounds P ->
  match bitsToChunks bits (repeat 255%N (digestSizeBytes P)) (digestSizeBytes P) cap with
  | Ok l => match scan_C P l [] with Ok [] => true | _ => false end
  | _ => false
  end = true ->
  forall fuel, expand_loop (const_env 255) P fuel bits cap (scan_C P) (repeat 255%N (digestSizeBytes P)) [] = NoFuel.
Proof.
  intros Hu H. induction fuel as [|fuel IH]; cbn [expand_loop]; cbn [length]; replace (0 <? numOpenedRounds P) with true by lia;
    [reflexivity|].
  destruct (bitsToChunks _ _ _ _) as [l| | |]; try discriminate. cbn [bind].
  destruct (scan_C P l []) as [[|? ?]| | |]; try discriminate. cbn [bind].
  unfold slice. rewrite repeat_length. cbn [Nat.add]. rewrite Nat.leb_refl. cbn [bind]. exact IH.
Qed.

Lemma expand_stuck p P fuel : get_param_set p = Some P -> is_picnic3 p = true ->
  expandChallengeHash (const_env 255) P fuel (repeat 255%N (digestSizeBytes P)) = NoFuel.
Proof.
  intros HP H3. pose proof (get_param_set_wfP3 _ _ HP H3) as HP3.
  assert (H : stuck_b p P = true).
  { revert p P HP H3 HP3. intros p P HP _ _. revert p P HP. apply (params_forall stuck_b). vm_compute. reflexivity. }
  unfold stuck_b in H. rewrite H3 in H. cbn [negb orb] in H. cbv zeta in H.
  pose proof (expandChallengeHash_ok (const_env 255) P HP3 (const_env_bytes 255 eq_refl) fuel
    (repeat 255%N (digestSizeBytes P))) as Ho. rewrite repeat_length in Ho. specialize (Ho (le_n _)).
  unfold expandChallengeHash in Ho |- *. cbv zeta in Ho |- *.
  destruct (guard (0 <? Nat.min (ceil_log2_nat (numMPCRounds P)) (ceil_log2_nat (numMPCParties P)))) as [[]| | |]; cbn [bind okf] in Ho |- *; try contradiction; auto.
  unfold slice in Ho |- *. rewrite repeat_length in Ho |- *. cbn [Nat.add] in Ho |- *. rewrite Nat.leb_refl in Ho |- *. cbn [bind] in Ho |- *.
  destruct (guard (digestSizeBytes P <=? MAX_DIGEST_SIZE)) as [[]| | |]; cbn [bind okf] in Ho |- *; try contradiction; auto.
  rewrite skipn_O, firstn_all2 by (rewrite repeat_length; auto).
  rewrite stuck_loop; [reflexivity| |exact H]. apply (w3_u P HP3).
Qed.

Lemma C23_p3_pf p P fuel msg buf len : get_param_set p = Some P -> is_picnic3 p = true -> len <= length buf ->
  picnic_sign (const_env 255) fuel (toy_sk p) msg buf len = NoFuel.
Proof.
  intros HP H3 Hl. pose proof (get_param_set_wfP3 _ _ HP H3) as HP3.
  destruct (toy_sk_facts p P HP) as (Hs & Hw & _ & Hr & _).
  rewrite (sign3_eq (const_env 255) P p HP H3 (const_env_bytes 255 eq_refl) (const_constants 255 p P HP)
    (const_inverses 255 p P HP) fuel (toy_sk p) msg buf len Hs Hw Hl).
  assert (Hp : block_wf (pk_ciphertext (sk_pk (toy_sk p)))) by apply Hw.
  destruct (block_len P p HP H3 _ Hp) as [_ Hp1].
  rewrite (proj2 (senc_rel (const_env 255) P HP3 (sk_data (toy_sk p)) _ (pk_plaintext (sk_pk (toy_sk p))) Hp1 (proj2 Hp)) (Hr 255%N)).
  change (schal (const_env 255) P fuel (toy_sk p) msg)
    with (expandChallengeHash (const_env 255) P fuel (repeat 255%N (digestSizeBytes P))).
  rewrite (expand_stuck p P fuel HP H3). reflexivity.
Qed.
