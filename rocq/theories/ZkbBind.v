(** A ZKB++ signature accepted for two messages or public keys: two strings with the same challenge. *)

From Coq Require Import List NArith Arith Bool Lia ZifyBool ZifyNat ZifyN.
From Verif Require Import Base Params Env Spec LowMC Picnic1 Picnic3 Api ApiSpec SigSpec P3Spec BaseFacts ParamFacts ApiFacts
  ZkbppSpec ZkbppProofs ZkbppProofs3 ZkbppProofs4 SoundSpec P3Props ZkbWitness.
Import ListNotations.

Lemma bytes_of_len k v : length (bytes_of k v) = octets k.
Proof. unfold bytes_of. rewrite map_length, seq_length. reflexivity. Qed.

Lemma parties_len T f g : (forall t j, t < T -> j < 3 -> length (f t j) = length (g t j)) ->
  length (flat_map (fun t => f t 0 ++ f t 1 ++ f t 2) (seq 0 T) : bytes) =
  length (flat_map (fun t => g t 0 ++ g t 1 ++ g t 2) (seq 0 T) : bytes).
Proof.
  intros H. assert (Hs : forall t, In t (seq 0 T) -> t < T) by (intros t Ht; apply in_seq in Ht; lia).
  revert Hs. induction (seq 0 T) as [|t l IH]; intros Hs; [reflexivity|]. cbn [flat_map].
  rewrite !app_length, IH by (intros x Hx; apply Hs; right; auto).
  rewrite !H by (auto; try lia; apply Hs; left; auto). reflexivity.
Qed.

Section B.
Variable E : env.
Variable sp : sparams.
Variable Lm : lowmc.
Hypothesis HE : env_bytes_ok E.

Lemma KDF_len x k : length (KDF E sp x k) = k.
Proof. unfold KDF. apply HE. Qed.
Lemma Hi_len i x : length (Hi E sp i x) = octets (sp_H sp).
Proof. apply KDF_len. Qed.

Section Z.
Variable z : zsig.
Variables C p C' p' : bytes.

Lemma out_len t j : length (ver_out E sp Lm C p z t j) = length (ver_out E sp Lm C' p' z t j).
Proof. unfold ver_out, three. destruct (j =? _); [|destruct (j =? _)]; rewrite !bytes_of_len; reflexivity. Qed.
Lemma C_len t j : length (ver_C E sp Lm p z t j) = length (ver_C E sp Lm p' z t j).
Proof.
  unfold ver_C, three, opened_commitment. destruct (j =? _); [|destruct (j =? _)]; rewrite ?Hi_len; reflexivity.
Qed.
Lemma G_len t j : length (ver_G E sp Lm p z t j) = length (ver_G E sp Lm p' z t j).
Proof. unfold ver_G, three, opened_G. destruct (j =? _); [|destruct (j =? _)]; rewrite ?KDF_len; reflexivity. Qed.

Lemma string_inj M M' : length C = length C' -> length p = length p' ->
  challenge_string sp (ver_out E sp Lm C p z) (ver_C E sp Lm p z) (ver_G E sp Lm p z) (C ++ p) (zs_salt z) M =
  challenge_string sp (ver_out E sp Lm C' p' z) (ver_C E sp Lm p' z) (ver_G E sp Lm p' z) (C' ++ p') (zs_salt z) M' ->
  M = M' /\ C = C' /\ p = p'.
Proof.
  intros LC Lp H. unfold challenge_string, all_parties in H.
  apply app_inj_len in H; [|apply parties_len; intros; apply out_len]. destruct H as [_ H].
  apply app_inj_len in H; [|apply parties_len; intros; apply C_len]. destruct H as [_ H].
  apply app_inj_len in H; [|destruct (sp_UR sp); [apply parties_len; intros; apply G_len|reflexivity]]. destruct H as [_ H].
  rewrite <- !app_assoc in H. apply app_inj_len in H; [|exact LC]. destruct H as [-> H].
  apply app_inj_len in H; [|exact Lp]. destruct H as [-> H].
  apply app_inj_len in H; [|reflexivity]. destruct H as [_ ->]. auto.
Qed.
End Z.

Lemma H3_len fuel x e : H3 E sp fuel x = Some e -> length e = sp_T sp.
Proof.
  unfold H3. destruct (Nat.leb_spec (sp_T sp) (length (flat_map (digest_trits sp) (digests E sp fuel (Hi E sp 1 x))))) as [Hl|Hl];
    [|discriminate].
  intros [= <-]. rewrite firstn_length. lia.
Qed.

Lemma check_e C p M z fuel : zkbpp_check E sp Lm C p M z fuel = Some true ->
  H3 E sp fuel (challenge_string sp (ver_out E sp Lm C p z) (ver_C E sp Lm p z) (ver_G E sp Lm p z) (C ++ p) (zs_salt z) M) =
  Some (map (encoded_trit (zs_e z)) (seq 0 (sp_T sp))).
Proof.
  unfold zkbpp_check. destruct (H3 _ _ _ _) as [e|] eqn:He; [|discriminate]. intros H. injection H as H.
  apply andb_true_iff in H. destruct H as [H _]. f_equal. apply H3_len in He.
  apply (nth_ext _ _ 0 (encoded_trit (zs_e z) 0)); [rewrite map_length, seq_length; exact He|].
  intros t Ht. rewrite map_nth, seq_nth by lia. rewrite forallb_forall in H. specialize (H t).
  rewrite in_seq in H. specialize (H ltac:(lia)). apply Nat.eqb_eq in H. exact H.
Qed.

Lemma parse_e sg z : zkbpp_parse sp sg = Some z -> zs_e z = firstn (octets (2 * sp_T sp)) sg /\ octets (2 * sp_T sp) <= length sg.
Proof.
  unfold zkbpp_parse. destruct (read _ sg) as [[c b]|] eqn:R1; [|discriminate].
  unfold read in R1. destruct (Nat.leb_spec (octets (2 * sp_T sp)) (length sg)) as [Hl|]; [|discriminate].
  injection R1 as <- <-. destruct (read 32 _) as [[salt b']|]; [|discriminate].
  destruct (forallb _ _); [|discriminate]. destruct (read_rounds _ _ _) as [os|]; [|discriminate].
  intros [= <-]. auto.
Qed.

Lemma trit_firstn k t (b : bytes) : 2 * t + 1 < 8 * k -> encoded_trit (firstn k b) t = encoded_trit b t.
Proof.
  intros Hk. unfold encoded_trit. rewrite !bit_firstn by lia. reflexivity.
Qed.
End B.

Lemma C46_pf E P p sp fuel fuel' pk pk' msg msg' sg :
  get_param_set p = Some P -> is_picnic3 p = false -> table2 p = Some sp ->
  env_bytes_ok E -> constants_ok E P ->
  pk_params pk = p -> pk_wf pk -> padding_zero P (pk_ciphertext pk) ->
  pk_params pk' = p -> pk_wf pk' -> padding_zero P (pk_ciphertext pk') -> bytes_ok sg ->
  picnic_verify E fuel pk msg sg = Ok true -> picnic_verify E fuel' pk' msg' sg = Ok true ->
  (msg, block P (pk_ciphertext pk), block P (pk_plaintext pk)) <>
  (msg', block P (pk_ciphertext pk'), block P (pk_plaintext pk')) ->
  let X := zkb_string E P sp (pk_ciphertext pk) (pk_plaintext pk) msg sg in
  let Y := zkb_string E P sp (pk_ciphertext pk') (pk_plaintext pk') msg' sg in
  X <> Y /\ exists e, H3 E sp fuel X = Some e /\ H3 E sp fuel' Y = Some e /\
  length e = sp_T sp /\ forall t, t < sp_T sp -> nth t e 0 = encoded_trit sg t.
Proof.
  intros HP H3f Htab HE HC Hp W Hpad Hp' W' Hpad' Hsg Hv Hv' Hne X Y.
  destruct (table2_conforms p P HP) as (sp' & Htab' & CF). assert (sp' = sp) as -> by congruence.
  assert (Hz : exists z, zkbpp_parse sp sg = Some z /\
    zkbpp_check E sp (spec_lowmc E P sp) (block P (pk_ciphertext pk)) (block P (pk_plaintext pk)) msg z fuel = Some true /\
    zkbpp_check E sp (spec_lowmc E P sp) (block P (pk_ciphertext pk')) (block P (pk_plaintext pk')) msg' z fuel' = Some true).
  { destruct (picnic_verify_is E p P sp fuel pk msg sg HP Hp H3f Htab HE HC W Hpad Hsg) as [H|[H _]]; [|congruence].
    destruct (picnic_verify_is E p P sp fuel' pk' msg' sg HP Hp' H3f Htab HE HC W' Hpad' Hsg) as [H'|[H' _]]; [|congruence].
    rewrite H in Hv. rewrite H' in Hv'. unfold zkbpp_verify in Hv, Hv'.
    destruct (zkbpp_parse sp sg) as [z|]; [|discriminate]. exists z. split; [reflexivity|].
    destruct (zkbpp_check E sp _ _ _ _ z fuel) as [[|]|]; try discriminate.
    destruct (zkbpp_check E sp _ _ _ _ z fuel') as [[|]|]; try discriminate. auto. }
  destruct Hz as (z & Hz & K1 & K2). unfold X, Y, zkb_string. rewrite Hz. unfold block in *.
  assert (Hbl : forall b, block_wf b -> length (firstn (stateSizeBytes P) b) = stateSizeBytes P).
  { intros b [Hb _]. rewrite firstn_length. pose proof (proj2 (wfP_block P (get_param_set_wfP p P HP))). lia. }
  destruct W as [Wpt Wpub], W' as [Wpt' Wpub'].
  split.
  - intros He. apply Hne. apply (string_inj E sp _ HE) in He; [|rewrite !Hbl; auto|rewrite !Hbl; auto].
    destruct He as (-> & -> & ->). reflexivity.
  - exists (map (encoded_trit (zs_e z)) (seq 0 (sp_T sp))).
    split; [apply check_e; exact K1|]. split; [apply check_e; exact K2|].
    split; [rewrite map_length, seq_length; reflexivity|].
    intros t Ht. rewrite (nth_indep _ 0 (encoded_trit (zs_e z) 0)) by (rewrite map_length, seq_length; exact Ht).
    rewrite map_nth, seq_nth by auto. destruct (parse_e sp sg z Hz) as [-> Hl]. apply trit_firstn.
    cbn [Nat.add]. unfold octets. pose proof (Nat.div_mod (2 * sp_T sp + 7) 8 ltac:(lia)).
    pose proof (Nat.mod_upper_bound (2 * sp_T sp + 7) 8 ltac:(lia)). lia.
Qed.

(** Under the constant functions the challenge does not depend on the string, so a signature of one message
    is accepted for every other. *)
Lemma const_any_message p P sp fuel pk msg msg' sg :
  get_param_set p = Some P -> is_picnic3 p = false -> table2 p = Some sp ->
  constants_ok (const_env 85) P -> env_bytes_ok (const_env 85) ->
  pk_params pk = p -> pk_wf pk -> padding_zero P (pk_ciphertext pk) -> bytes_ok sg ->
  picnic_verify (const_env 85) fuel pk msg sg = Ok true -> picnic_verify (const_env 85) fuel pk msg' sg = Ok true.
Proof.
  intros HP H3f Htab HC HE Hp W Hpad Hsg Hv.
  destruct (picnic_verify_is _ p P sp fuel pk msg sg HP Hp H3f Htab HE HC W Hpad Hsg) as [H|[H _]]; [|congruence].
  destruct (picnic_verify_is _ p P sp fuel pk msg' sg HP Hp H3f Htab HE HC W Hpad Hsg) as [H'|[H' [_ Hn]]].
  - rewrite H', <- Hv, H. reflexivity.
  - exfalso. rewrite H in Hv. unfold zkbpp_verify in Hv. rewrite Hn in Hv. discriminate Hv.
Qed.

(** Signatures consist of bytes. *)
Lemma bytes_of_ok k v : bytes_ok (bytes_of k v).
Proof. apply bytes_of_spec. Qed.

Lemma zkbpp_sign_bytes E sp Lm sk C p M fuel sg : env_bytes_ok E -> zkbpp_sign E sp Lm sk C p M fuel = Some sg -> bytes_ok sg.
Proof.
  intros HE. unfold zkbpp_sign. destruct (sign_challenge _ _ _ _ _ _ _ _) as [e|]; [|discriminate]. intros [= <-].
  assert (K : forall x k, bytes_ok (KDF E sp x k)) by (intros; unfold KDF; apply HE).
  assert (S' : forall x o k, bytes_ok x -> bytes_ok (sub_bytes x o k)) by (intros; apply bytes_ok_slice; auto).
  apply Forall_app. split; [apply bytes_of_ok|]. apply Forall_app. split; [apply S', K|].
  apply Forall_flat_map, Forall_forall. intros t _. unfold sign_round_bytes.
  repeat (apply Forall_app; split); try apply bytes_of_ok; try apply S', K; try apply K.
  - destruct (sp_UR sp); [apply K|constructor].
  - destruct (_ =? 0); [constructor|apply bytes_of_ok].
Qed.

Lemma zkb_sign_bytes E p P fuel sk msg buf len buf' l :
  get_param_set p = Some P -> sk_params sk = p -> is_picnic3 p = false ->
  env_bytes_ok E -> constants_ok E P -> sk_wf sk -> padding_zero P (sk_data sk) ->
  lowmc_relation E P (sk_data sk) (pk_plaintext (sk_pk sk)) (pk_ciphertext (sk_pk sk)) ->
  len <= length buf -> picnic_sign E fuel sk msg buf len = Ok (true, buf', l) -> bytes_ok (firstn l buf').
Proof.
  intros HP Hp H3f HE HC W Hpad Hr Hl H. destruct (table2_conforms p P HP) as (sp & Ht & _).
  rewrite (picnic_sign_is E p P sp fuel sk msg buf len HP Hp H3f Ht HE HC W Hpad Hr Hl) in H.
  destruct (zkbpp_sign _ _ _ _ _ _ _ _) as [sg|] eqn:Hs; [|discriminate H].
  destruct (len <? _); [discriminate H|]. injection H as <- <-.
  rewrite firstn_app, Nat.sub_diag, firstn_all, firstn_O, app_nil_r. exact (zkbpp_sign_bytes _ _ _ _ _ _ _ _ _ HE Hs).
Qed.
