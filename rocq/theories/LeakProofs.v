From Coq Require Import List Lia Arith NArith Bool.
From Verif Require Import Base Params Env Spec LowMC Tree Picnic3 Api ApiSpec SigSpec BaseFacts ParamFacts LowMCFacts LowMCInj UtilFacts
  ApiFacts ZkbChal TreeShape TreeSeed P3Tape P3Aux P3Online P3Mask P3Chal P3Round P3Seeds P3Verify P3Sign P3Complete P3Codec P3Ext P3Api
  ZkbppSpec ZkbppProofs ZkbppProofs4 KkwSpec KkwTree KkwChal KkwNodes KkwOnline KkwSign KkwVerify ZkbApi ZkbProps Witness ZkbWitness P3Witness
  HashSpec KeccakSpec KeccakPerm KeccakProofs HashProofs LeakSpec Leak.
Import ListNotations.

(** SHAKE *)
Lemma iter_keccak_len S i : length S = 1600 -> length (Nat.iter i keccak_f S) = 1600.
Proof. intros H. destruct i as [|i]; [exact H|]. exact (length_keccak_f (Nat.iter i keccak_f S)). Qed.

Lemma flat_blocks_len r S k : 0 < r <= 1600 -> length S = 1600 ->
  length (flat_map (fun i => firstn r (Nat.iter i keccak_f S)) (seq 0 k)) = k * r.
Proof.
  intros Hr HS. rewrite length_flat_map_const with (k := r); [rewrite seq_length; apply Nat.mul_comm|].
  intros i. rewrite firstn_length, iter_keccak_len by auto. lia.
Qed.

Lemma squeezed_stream r d d' S : 0 < r <= 1600 -> length S = 1600 -> d <= d' ->
  squeezed r d S = firstn d (squeezed r d' S).
Proof.
  intros Hr HS Hd. unfold squeezed. rewrite firstn_firstn, Nat.min_l by auto.
  assert (Hk : (d + r - 1) / r <= (d' + r - 1) / r) by (apply Nat.div_le_mono; lia).
  replace ((d' + r - 1) / r) with ((d + r - 1) / r + ((d' + r - 1) / r - (d + r - 1) / r)) by lia.
  rewrite seq_app, flat_map_app, firstn_app, (flat_blocks_len r S _ Hr HS).
  assert (Hc : d <= (d + r - 1) / r * r).
  { pose proof (Nat.div_mod (d + r - 1) r ltac:(lia)) as H. pose proof (Nat.mod_upper_bound (d + r - 1) r ltac:(lia)). nia. }
  replace (d - _) with 0 by lia. rewrite firstn_O, app_nil_r. reflexivity.
Qed.

Lemma bits_bytes_firstn l n : 8 * n <= length l -> bits_bytes (firstn (8 * n) l) = firstn n (bits_bytes l).
Proof.
  intros Hl. unfold bits_bytes. rewrite firstn_map. rewrite firstn_length, Nat.min_l by auto.
  replace (8 * n / 8) with n by (rewrite Nat.mul_comm, Nat.div_mul; auto).
  assert (Hn : n <= length l / 8) by (apply Nat.div_le_lower_bound; lia).
  replace (firstn n (seq 0 (length l / 8))) with (seq 0 n).
  2:{ replace (length l / 8) with (n + (length l / 8 - n)) by lia. rewrite seq_app, firstn_app, seq_length, Nat.sub_diag.
      rewrite firstn_O, app_nil_r. symmetry. apply firstn_all2. rewrite seq_length. auto. }
  apply map_ext_in. intros i Hi. apply in_seq in Hi. f_equal.
  rewrite skipn_firstn_comm, firstn_firstn. rewrite Nat.min_l by lia. reflexivity.
Qed.

Lemma shake_stream E : xof_stream (with_shake E).
Proof.
  intros b x m n Hmn. cbn [xof with_shake]. unfold shake.
  assert (HS : exists r S, 0 < r <= 1600 /\ length S = 1600 /\
     forall d, (if b then SHAKE128 else SHAKE256) (bytes_bits x) d = squeezed r d S).
  { destruct b; [exists 1344|exists 1088]; eexists; (split; [lia|]); (split; [|intros d; reflexivity]); apply length_absorbed. }
  destruct HS as (r & S & Hr & HS & He). rewrite !He.
  rewrite (squeezed_stream r (8 * m) (8 * n)) by (auto; lia).
  apply bits_bytes_firstn. rewrite length_squeezed by auto. lia.
Qed.

(** A concrete signature *)
Lemma count_stream : xof_stream count_env.
Proof.
  intros b x m n H. cbn [xof count_env]. unfold cnt. rewrite firstn_map. f_equal.
  replace n with (m + (n - m)) by lia. rewrite seq_app, firstn_app, seq_length, Nat.sub_diag, firstn_O, app_nil_r.
  symmetry. apply firstn_all2. rewrite seq_length. auto.
Qed.

Lemma sign_digest E p P fuel sk msg buf len buf' l :
  get_param_set p = Some P -> sk_params sk = p -> is_picnic3 p = true ->
  env_bytes_ok E -> constants_ok E P -> inverses_ok E P -> sk_wf sk -> len <= length buf ->
  picnic_sign E fuel sk msg buf len = Ok (true, buf', l) ->
  exists d, firstn (digestSizeBytes P) buf' = xof E (use_shake128 P) (d ++ msg) (digestSizeBytes P).
Proof.
  intros HP Hp H3 HE HC HI Wsk Hl Hs. pose proof (get_param_set_wfP3 _ _ HP H3) as HP3.
  rewrite (sign3_eq E P p HP H3 HE HC HI fuel sk msg buf len Hp Wsk Hl) in Hs.
  destruct (eqb_bytes _ _) eqn:Er; [|discriminate].
  pose proof (schal_wf E P p HP H3 HE fuel sk msg) as Hw.
  destruct (schal E P fuel sk msg) as [[C L]| | |] eqn:Ex; cbn [bind] in Hs; try discriminate. cbn [okf fst snd] in Hw.
  cbv zeta in Hs. destruct (len <? _); [discriminate|]. injection Hs as <- <-.
  pose proof Wsk as (W1 & W2 & W3). destruct (table2_conforms p P HP) as (sp & Htab & CF).
  destruct (block_len P p HP H3 _ W1) as [L1 _]. destruct (block_len P p HP H3 _ W2) as [L2 _].
  destruct (block_len P p HP H3 _ W3) as [_ L3].
  unfold sbytes. cbn [fst snd]. set (s := ssig E P _ _ _ msg C L).
  destruct (ssig_raw E P HP3 _ _ _ msg HE L1 L2 L3 _ _ Hw) as [Hr Ha]. fold s in Hr, Ha.
  destruct (kparse_enc E P sp HP3 CF s Hr) as (b & Hb & _). pose proof Hr as (_ & S2 & _).
  rewrite Hb. rewrite <- app_assoc, firstn_app, S2, Nat.sub_diag, firstn_O, app_nil_r, firstn_all2 by (rewrite S2; auto).
  unfold s, ssig. cbn [g_challengeHash]. unfold shash, hcp, hash. rewrite concat_app. cbn [concat].
  rewrite app_nil_r, !app_assoc. eexists. reflexivity.
Qed.

Definition count_shown_b (P : paramset) (o : nat) (sp : sparams) : bool :=
  match challenge count_env sp 30 (cnt (N.of_nat o) (digestSizeBytes P)) with
  | Some (LC, LP) => existsb (fun t => negb (unopened LC LP t =? sp_N sp - 1)) LC
  | None => false
  end.
Definition count_shows_b (p : N) (P : paramset) : bool :=
  negb (is_picnic3 p) || match table2 p with Some sp => forallb (fun o => count_shown_b P o sp) (seq 0 4) | None => true end.

Lemma count_shows p P sp o : get_param_set p = Some P -> is_picnic3 p = true -> table2 p = Some sp -> (o < 4)%N ->
  ~ exists LC LP, challenge count_env sp 30 (cnt o (digestSizeBytes P)) = Some (LC, LP) /\
                  forall t, In t LC -> unopened LC LP t = sp_N sp - 1.
Proof.
  intros HP H3 Ht Ho (LC & LP & Hc & Hu).
  assert (H : count_shows_b p P = true).
  { revert p P HP H3 Ht Hc. intros p P HP _ _ _. revert p P HP. apply (params_forall count_shows_b). vm_compute. reflexivity. }
  unfold count_shows_b in H. rewrite H3, Ht in H. cbn [negb orb] in H.
  rewrite forallb_forall in H. specialize (H (N.to_nat o)). rewrite in_seq in H. specialize (H ltac:(lia)).
  unfold count_shown_b in H. rewrite N2Nat.id, Hc in H. apply existsb_exists in H. destruct H as (t & Hi & Hn).
  rewrite (Hu t Hi), Nat.eqb_refl in Hn. discriminate.
Qed.

Lemma count_leaks p P sp msg : get_param_set p = Some P -> is_picnic3 p = true -> table2 p = Some sp ->
  msg <> [] -> (last msg 0 < 4)%N ->
  exists buf' l, picnic_sign count_env 30 (toy_sk p) msg (zeros (sig_size p)) (sig_size p) = Ok (true, buf', l) /\
    key_from_signature count_env sp (spec_K0inv count_env P) 30 (firstn l buf') = Some (block P (sk_data (toy_sk p))).
Proof.
  intros HP H3 Ht Hm Hl. destruct (p3_setup p P HP) as (A1 & _ & A3 & A4 & A5 & A6 & _ & _ & _ & A10 & A11).
  destruct (count_signs p P msg HP H3 Hm Hl) as (buf' & l & Hs). exists buf', l. split; [exact Hs|].
  assert (Hll : sig_size p <= length (zeros (sig_size p))) by (rewrite A11; exact (le_n _)).
  destruct (toy_sk_facts p P HP) as (_ & _ & Hz & _).
  destruct (C52_pf count_env p P sp 30 (toy_sk p) msg (zeros (sig_size p)) (sig_size p) buf' l HP A6 H3 Ht A1 A3 A4 count_stream A5 Hz Hll Hs)
    as [H|H]; [exact H|]. exfalso.
  destruct (sign_digest count_env p P 30 (toy_sk p) msg (zeros (sig_size p)) (sig_size p) buf' l HP A6 H3 A1 A3 A4 A5 Hll Hs) as (d & Hd).
  rewrite Hd in H. cbn [xof count_env] in H. rewrite last_app2 in H by exact Hm.
  exact (count_shows p P sp (last msg 0%N) HP H3 Ht Hl H).
Qed.
