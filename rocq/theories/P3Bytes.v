(** The bytes of a Picnic3 signature are bytes. *)

From Coq Require Import List NArith Arith Bool Lia ZifyBool ZifyNat ZifyN.
From Verif Require Import Base Params Env Spec LowMC Tree Picnic3 Api ApiSpec SigSpec BaseFacts ParamFacts
  ZkbChal TreeShape P3Tape P3Aux P3Online P3Chal P3Round P3Seeds P3Verify P3Sign P3Complete P3Codec P3Ext P3Api.
Import ListNotations.

Local Opaque pack.

Definition part {A} (r : res A) (Q : A -> Prop) : Prop := match r with Ok a => Q a | _ => True end.

Lemma part_bind {A B} (r : res A) (f : A -> res B) Q R :
  part r Q -> (forall a, Q a -> part (f a) R) -> part (bind r f) R.
Proof. destruct r; cbn; auto. Qed.

Lemma part_true {A} (r : res A) : part r (fun _ => True).
Proof. destruct r; exact I. Qed.

Lemma part_for {S} (I : S -> Prop) n : forall i (f : nat -> S -> res S) s,
  I s -> (forall i s, I s -> part (f i s) I) -> part (for_loop n i f s) I.
Proof.
  induction n as [|n IH]; intros i f s Hs Hf; cbn [for_loop]; [exact Hs|].
  eapply part_bind; [apply Hf; exact Hs|]. intros s' Hs'. apply IH; auto.
Qed.

Lemma part_down {S} (I : S -> Prop) n : forall (f : nat -> S -> res S) s,
  I s -> (forall i s, I s -> part (f i s) I) -> part (for_down n f s) I.
Proof.
  induction n as [|n IH]; intros f s Hs Hf; cbn [for_down]; [exact Hs|].
  eapply part_bind; [apply Hf; exact Hs|]. intros s' Hs'. apply IH; auto.
Qed.

Lemma part_slice b off k : bytes_ok b -> part (slice b off k) bytes_ok.
Proof.
  intros Hb. unfold slice. destruct (_ <=? _); cbn; [|exact I].
  apply Forall_firstn. unfold bytes_ok in *.
  rewrite <- (firstn_skipn off b) in Hb. apply Forall_app in Hb. apply Hb.
Qed.

Definition nodes_ok (t : tree) : Prop := Forall bytes_ok (t_nodes t).

Lemma Forall_list_set {A} (Q : A -> Prop) l : forall i x, Forall Q l -> Q x -> Forall Q (list_set l i x).
Proof.
  induction l as [|y l IH]; intros [|i] x Hl Hx; cbn [list_set]; inversion Hl; subst; auto.
Qed.

Lemma part_put t i d : nodes_ok t -> bytes_ok d -> part (put_node t i d) nodes_ok.
Proof.
  intros Ht Hd. unfold put_node.
  eapply part_bind with (Q := bytes_ok).
  { unfold rd. destruct (nth_error (t_nodes t) i) as [x|] eqn:E; cbn; [|exact I].
    apply nth_error_In in E. unfold nodes_ok in Ht. rewrite Forall_forall in Ht. auto. }
  intros old Ho. eapply part_bind with (Q := bytes_ok).
  { unfold blit. destruct (_ <=? _); cbn; [|exact I]. apply Forall_app. split; [exact Hd|].
    unfold bytes_ok in *. rewrite <- (firstn_skipn (length d) old) in Ho. apply Forall_app in Ho. apply Ho. }
  intros new Hn. eapply part_bind with (Q := Forall bytes_ok).
  { unfold wr. destruct (_ <? _); cbn; [|exact I]. apply Forall_list_set; auto. }
  intros nodes Hns. eapply part_bind; [apply part_true|]. intros have _. cbn. exact Hns.
Qed.

Lemma part_create n s : part (createTree n s) nodes_ok.
Proof.
  unfold createTree. repeat (eapply part_bind; [apply part_true|]; intros ? _). cbn. unfold nodes_ok. cbn.
  apply Forall_forall. intros x Hx. apply repeat_spec in Hx. subst x. apply bytes_ok_zeros.
Qed.

Lemma nodes_nd t i : nodes_ok t -> bytes_ok (nd t i).
Proof.
  intros Ht. unfold nd. destruct (Nat.lt_ge_cases i (length (t_nodes t))) as [Hi|Hi].
  - unfold nodes_ok in Ht. rewrite Forall_forall in Ht. apply Ht, nth_In. auto.
  - rewrite nth_overflow by auto. constructor.
Qed.

Lemma part_val (r : res tree) : part r nodes_ok -> nodes_ok (val dtree r).
Proof. destruct r; cbn; auto; intros _; constructor. Qed.

Section B.
Variable E : env.
Variable P : paramset.
Hypothesis HE : env_bytes_ok E.

Lemma part_gen n root salt rep : bytes_ok root -> part (generateSeeds E P n root salt rep) nodes_ok.
Proof.
  intros Hr. unfold generateSeeds. eapply part_bind; [apply part_create|]. intros t Ht.
  eapply part_bind; [apply part_slice; exact Hr|]. intros r Hrr.
  eapply part_bind; [apply part_put; [exact Ht|exact Hrr]|]. clear t Ht. intros t Ht. unfold expandSeeds.
  eapply part_bind; [apply part_true|]. intros l _. apply part_for; [exact Ht|]. clear t Ht l. intros i t Ht.
  unfold expand_step. eapply part_bind; [apply part_true|]. intros h _. destruct h; cbn [negb]; [|exact Ht].
  eapply part_bind; [apply part_true|]. intros ndd _. eapply part_bind with (Q := bytes_ok).
  { unfold hashSeed. repeat (eapply part_bind; [apply part_true|]; intros ? _). cbn. apply hash_bytesok. auto. }
  intros tmp Htmp. eapply part_bind; [apply part_true|]. intros _ _. eapply part_bind; [apply part_true|]. intros hl _.
  eapply part_bind with (Q := nodes_ok).
  { destruct (negb hl); [|exact Ht]. eapply part_bind; [apply part_slice; exact Htmp|]. intros d Hd. apply part_put; auto. }
  clear t Ht. intros t Ht. eapply part_bind; [apply part_true|]. intros er _. destruct er; [|exact Ht].
  eapply part_bind; [apply part_true|]. intros hr _. destruct (negb hr); [|exact Ht].
  eapply part_bind; [apply part_slice; exact Htmp|]. intros d Hd. apply part_put; auto.
Qed.

Lemma part_merkle t ld salt : nodes_ok t -> Forall (fun o => match o with Some d => bytes_ok d | None => True end) ld ->
  part (buildMerkleTree E P t ld salt) nodes_ok.
Proof.
  intros Ht Hl. unfold buildMerkleTree. eapply part_bind with (Q := nodes_ok).
  { apply part_for; [exact Ht|]. clear t Ht. intros i t Ht.
    eapply part_bind with (Q := fun o => match o with Some d => bytes_ok d | None => True end).
    { unfold rd. destruct (nth_error ld i) as [o|] eqn:Eo; cbn; [|exact I]. apply nth_error_In in Eo.
      rewrite Forall_forall in Hl. exact (Hl o Eo). }
    intros [d|] Hd; [|exact Ht]. eapply part_bind; [apply part_slice; exact Hd|]. intros d' Hd'. apply part_put; auto. }
  clear t Ht. intros t Ht. apply part_down; [exact Ht|]. clear t Ht. intros i t Ht. unfold computeParentHash.
  repeat first
    [ progress cbv zeta
    | match goal with
      | |- part (bind _ _) _ => eapply part_bind; [apply part_true|]; intros ? _
      | |- part (if ?b then _ else _) _ => destruct b
      | |- part (Ok _) _ => exact Ht
      end ].
  apply part_put; [exact Ht|]. apply hash_bytesok. auto.
Qed.

Lemma sopen_bytes n t hide : nodes_ok t -> bytes_ok (sopen P n t hide).
Proof.
  intros Ht. unfold sopen, bytes_ok. apply Forall_concat, Forall_map, Forall_forall. intros r _.
  apply Forall_firstn. apply nodes_nd. auto.
Qed.

Lemma pack_bytes k f : bytes_ok (pack k f).
Proof. apply pack_spec. Qed.

Lemma sig_bytes sk pub pt msg C L : bytes_ok (enc3 P (ssig E P sk pub pt msg C L)).
Proof.
  assert (Hsr : bytes_ok (ssr E P sk pub pt msg)) by (apply hash_bytesok; auto).
  assert (Hsalt : bytes_ok (ssalt E P sk pub pt msg)) by (apply Forall_firstn; auto).
  assert (Hroot : bytes_ok (sroot E P sk pub pt msg)).
  { apply Forall_firstn. unfold bytes_ok in Hsr. rewrite <- (firstn_skipn (saltSizeBytes P)) in Hsr.
    apply Forall_app in Hsr. apply Hsr. }
  assert (Hi : nodes_ok (siseeds E P sk pub pt msg)) by (apply part_val, part_gen; auto).
  assert (Hs : forall t, nodes_ok (sseeds E P sk pub pt msg t)) by (intros t; apply part_val, part_gen, nodes_nd; auto).
  assert (Hm : nodes_ok (smerkle E P sk pub pt msg)).
  { apply part_val. eapply part_bind; [apply part_create|]. intros t Ht. apply part_merkle; auto.
    apply Forall_map, Forall_map, Forall_forall. intros t' _. apply hash_bytesok. auto. }
  unfold enc3, ssig. cbn [g_challengeHash g_salt g_iSeedInfo g_cvInfo g_proofs g_challengeC g_challengeP].
  apply Forall_app. split; [apply hash_bytesok; auto|]. apply Forall_app. split; [exact Hsalt|].
  apply Forall_app. split; [apply sopen_bytes; auto|]. apply Forall_app. split.
  { apply Forall_concat, Forall_map, Forall_forall. intros r _. apply nodes_nd. auto. }
  apply Forall_concat, Forall_map, Forall_forall. intros t Ht. apply in_seq in Ht.
  rewrite (nth_indep _ None (sproof E P sk pub pt msg C L 0)) by (rewrite map_length, seq_length; lia).
  rewrite map_nth, seq_nth by lia. cbn [Nat.add]. unfold renc, sproof.
  destruct (contains C t); [|constructor]. cbn [q_seedInfo q_aux q_input q_msgs q_C].
  apply Forall_app. split; [apply sopen_bytes; auto|]. apply Forall_app. split.
  { destruct (party C L t =? 15); [constructor|]. apply pack_bytes. }
  apply Forall_app. split; [apply Forall_firstn, pack_bytes|]. apply Forall_app. split.
  - destruct (Nat.lt_ge_cases (party C L t) 16) as [Hv|Hv].
    + unfold sms, omsgs. rewrite nth_map_seq by auto. apply pack_bytes.
    + rewrite nth_overflow; [constructor|]. unfold sms, omsgs. rewrite map_length, seq_length. auto.
  - destruct (Nat.lt_ge_cases (party C L t) 16) as [Hv|Hv].
    + unfold srow, row_full. rewrite nth_map_seq by auto. apply hash_bytesok. auto.
    + rewrite nth_overflow; [constructor|]. unfold srow, row_full. rewrite map_length, seq_length. auto.
Qed.

(** Signing returns bytes. *)
Lemma sign3_bytes p : get_param_set p = Some P -> is_picnic3 p = true -> constants_ok E P -> inverses_ok E P ->
  forall fuel sk msg buf len b buf' l, sk_params sk = p -> sk_wf sk -> bytes_ok buf -> len <= length buf ->
  picnic_sign E fuel sk msg buf len = Ok (b, buf', l) -> bytes_ok buf'.
Proof.
  intros HP H3 HC HI fuel sk msg buf len b buf' l Hp Hw Hb Hl.
  rewrite (sign3_eq E P p HP H3 HE HC HI fuel sk msg buf len Hp Hw Hl).
  destruct (eqb_bytes _ _); [|intros [= <- <- <-]; auto].
  destruct (schal E P fuel sk msg) as [CL| | |]; cbn [bind]; try discriminate. cbv zeta.
  destruct (_ <? _); intros [= <- <- <-]; auto. apply Forall_app. split; [apply sig_bytes|].
  unfold bytes_ok in Hb. rewrite <- (firstn_skipn (length (sbytes E P sk msg CL)) buf) in Hb.
  apply Forall_app in Hb. apply Hb.
Qed.
End B.
