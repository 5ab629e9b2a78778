(** Proofs of the key, parameter and utility properties, in the form used by PropertiesKeys.v. *)

From Coq Require Import List NArith Arith Bool Lia ZifyBool ZifyNat ZifyN String.
From Verif Require Import Base Params Env Spec LowMC Tree Picnic1 Picnic3 Api ApiSpec.
From Verif Require Import BaseFacts ParamFacts LowMCFacts ApiFacts UtilFacts.
Import ListNotations.

Lemma C06_pf pk P buf buflen k0 :
  get_param_set (pk_params pk) = Some P -> pk_wf pk -> pk_padding_zero P pk ->
  bytes_ok buf -> buflen <= List.length buf -> 1 + 2 * stateSizeBytes P <= buflen -> pk_wf k0 ->
  exists out pk',
    picnic_write_public_key (Some pk) (Some buf) buflen = Ok (Some (1 + 2 * stateSizeBytes P), Some out)
    /\ out = pk_encoding P pk ++ skipn (1 + 2 * stateSizeBytes P) buf
    /\ picnic_read_public_key (Some k0) (Some out) = Ok (true, Some pk')
    /\ pk_same P pk' pk.
Proof.
  intros HP Hwf Hpad Hbuf Hlen Hsz Hk0.
  destruct (read_write_public_key pk P k0 (skipn (1 + 2 * stateSizeBytes P) buf)) as (pk' & H1 & H2);
    auto. { apply Forall_skipn; auto. }
  exists (pk_encoding P pk ++ skipn (1 + 2 * stateSizeBytes P) buf), pk'.
  split; [apply write_public_key_spec; auto|]. auto.
Qed.

Lemma C07_pf sk P buf buflen k0 :
  get_param_set (sk_params sk) = Some P -> sk_wf sk -> sk_padding_zero P sk ->
  bytes_ok buf -> buflen <= List.length buf -> 1 + 3 * stateSizeBytes P <= buflen -> sk_wf k0 ->
  exists out sk',
    picnic_write_private_key (Some sk) (Some buf) buflen = Ok (Some (1 + 3 * stateSizeBytes P), Some out)
    /\ out = sk_encoding P sk ++ skipn (1 + 3 * stateSizeBytes P) buf
    /\ picnic_read_private_key (Some k0) (Some out) = Ok (true, Some sk')
    /\ sk_params sk' = sk_params sk
    /\ pk_params (sk_pk sk') = sk_params sk
    /\ sk_data sk' = block P (sk_data sk) ++ zeros (32 - stateSizeBytes P)
    /\ pk_plaintext (sk_pk sk') = block P (pk_plaintext (sk_pk sk)) ++ zeros (32 - stateSizeBytes P)
    /\ pk_ciphertext (sk_pk sk') = block P (pk_ciphertext (sk_pk sk)) ++ zeros (32 - stateSizeBytes P).
Proof.
  intros HP Hwf Hpad Hbuf Hlen Hsz Hk0.
  destruct (read_write_private_key sk P k0 (skipn (1 + 3 * stateSizeBytes P) buf)) as (sk' & H1 & H2);
    auto. { apply Forall_skipn; auto. }
  exists (sk_encoding P sk ++ skipn (1 + 3 * stateSizeBytes P) buf), sk'.
  split; [apply write_private_key_spec; auto|]. auto.
Qed.

Lemma C08_pk_pf k b :
  pk_wf k -> bytes_ok b ->
  exists r k',
    picnic_read_public_key (Some k) (Some b) = Ok (r, Some k')
    /\ (r = true <-> starts_with_pk b)
    /\ (r = true ->
        exists P, get_param_set (pk_params k') = Some P /\
          forall buf, bytes_ok buf -> List.length buf = 1 + 2 * stateSizeBytes P ->
          picnic_write_public_key (Some k') (Some buf) (List.length buf) =
          Ok (Some (1 + 2 * stateSizeBytes P), Some (firstn (1 + 2 * stateSizeBytes P) b))).
Proof.
  intros Hk Hb. pose proof (read_public_key_spec k b Hk) as H.
  apply ok_ex in H. destruct H as ([r k'] & Hr & key' & -> & Hwf & Hiff & Hdat).
  exists r, key'. split; auto. split; auto. intros Ht.
  destruct (Hdat Ht) as (P & HP & He & _). exists P. split; auto. intros buf Hbuf Hlen.
  rewrite (write_public_key_spec _ P); auto; try lia.
  rewrite <- Hlen, skipn_all, Hlen, app_nil_r.
  rewrite He. rewrite firstn_exact; auto.
  unfold pk_encoding. simpl. rewrite app_length.
  pose proof (get_param_set_wfP _ _ HP). destruct (Hwf Hb) as [[H1 _] [H2 _]].
  rewrite !length_block by auto. lia.
Qed.

Lemma C08_sk_pf k b :
  sk_wf k -> bytes_ok b ->
  exists r k',
    picnic_read_private_key (Some k) (Some b) = Ok (r, Some k')
    /\ (r = true <-> starts_with_sk b)
    /\ (r = true ->
        exists P, get_param_set (sk_params k') = Some P /\
          forall buf, bytes_ok buf -> List.length buf = 1 + 3 * stateSizeBytes P ->
          picnic_write_private_key (Some k') (Some buf) (List.length buf) =
          Ok (Some (1 + 3 * stateSizeBytes P), Some (firstn (1 + 3 * stateSizeBytes P) b))).
Proof.
  intros Hk Hb. pose proof (read_private_key_spec k b) as H.
  apply ok_ex in H. destruct H as ([r k'] & Hr & key' & -> & Hwf & Hiff & Hdat).
  exists r, key'. split; auto. split; auto. intros Ht.
  destruct (Hdat Ht) as (P & HP & He & _). exists P. split; auto. intros buf Hbuf Hlen.
  rewrite (write_private_key_spec _ P); auto; try lia.
  rewrite <- Hlen, skipn_all, Hlen, app_nil_r.
  rewrite He. rewrite firstn_exact; auto.
  unfold sk_encoding. simpl. rewrite !app_length.
  pose proof (get_param_set_wfP _ _ HP). destruct (Hwf Hb Hk) as [[H0 _] [[H1 _] [H2 _]]].
  rewrite !length_block by auto. lia.
Qed.

Lemma C09_pf E rng p pk0 sk0 :
  env_bytes_ok E -> (forall P, get_param_set p = Some P -> constants_ok E P) -> rng_wf rng ->
  exists r pk sk,
    picnic_keygen E rng p pk0 sk0 = Ok (r, pk, sk)
    /\ (r = true <-> exists P, get_param_set p = Some P /\
                       fst (rng 0 (stateSizeBytes P)) = true /\ fst (rng 1 (stateSizeBytes P)) = true)
    /\ (r = true ->
        exists P, get_param_set p = Some P
        /\ pk_params pk = p /\ sk_params sk = p /\ sk_pk sk = pk
        /\ picnic_validate_keypair E (Some sk) (Some pk) = Ok true
        /\ (forall i, stateSizeBits P <= i ->
              bit (sk_data sk) i = false /\ bit (pk_plaintext pk) i = false
              /\ bit (pk_ciphertext pk) i = false)
        /\ (forall buf k0, bytes_ok buf -> 1 + 2 * stateSizeBytes P <= List.length buf -> pk_wf k0 ->
              exists n out pk', picnic_write_public_key (Some pk) (Some buf) (List.length buf)
                              = Ok (Some n, Some out)
                           /\ picnic_read_public_key (Some k0) (Some out) = Ok (true, Some pk')
                           /\ pk_same P pk' pk)
        /\ (forall buf k0, bytes_ok buf -> 1 + 3 * stateSizeBytes P <= List.length buf -> sk_wf k0 ->
              exists n out, picnic_write_private_key (Some sk) (Some buf) (List.length buf)
                           = Ok (Some n, Some out)
                        /\ picnic_read_private_key (Some k0) (Some out) = Ok (true, Some sk))).
Proof.
  intros HE HC Hrng. pose proof (keygen_spec E HE rng p pk0 sk0 HC Hrng) as H.
  apply ok_ex in H. destruct H as ([[r pk] sk] & Hr & Hiff & Hdat).
  exists r, pk, sk. split; auto. split.
  - rewrite Hiff. destruct (get_param_set p) as [P|].
    + rewrite andb_true_iff. split.
      * intros []. exists P. auto.
      * intros (P' & H & H'). injection H as <-. auto.
    + split; [discriminate|]. intros (P' & H & H'). discriminate.
  - intros Ht. destruct (Hdat Ht) as (P & HP & Hp1 & Hp2 & Hsp & Hsw & Hpw & Hrel & Hz).
    exists P. split; auto. split; auto. split; auto. split; auto.
    assert (Hpad : sk_padding_zero P sk /\ pk_padding_zero P pk).
    { unfold sk_padding_zero, pk_padding_zero, padding_zero. rewrite Hsp.
      repeat split; intros i Hi; apply Hz; lia. }
    split; [|split; [|split]]; auto.
    + pose proof (validate_spec E HE sk pk P ltac:(congruence) (HC P HP) Hsw Hpw) as H.
      apply ok_ex in H. destruct H as (v & -> & H). f_equal. apply H. split; [congruence|auto].
    + intros buf k0 Hb Hl Hk0.
      destruct (C06_pf pk P buf (List.length buf) k0) as (out & pk' & H1 & H2 & H3 & H4);
        try tauto; try congruence; try lia. eauto 10.
    + intros buf k0 Hb Hl Hk0.
      destruct (C07_pf sk P buf (List.length buf) k0) as (out & sk' & H1 & H2 & H3 & H4 & H5 & H6 & H7 & H8);
        try tauto; try congruence; try lia.
      eexists; exists out. split; [eauto|]. rewrite H3. f_equal. f_equal. f_equal.
      assert (Htail : forall a, block_wf a -> (forall i, stateSizeBits P <= i -> bit a i = false) ->
                a = block P a ++ zeros (32 - stateSizeBytes P)).
      { intros a [Hal Hab] Ha. pose proof (get_param_set_wfP _ _ HP) as Hw.
        destruct (wfP_block P Hw) as [_ Hn]. pose proof Hw as []. pose proof (numBytes_spec (stateSizeBits P)).
        apply bits_ext; auto.
        - rewrite app_length, length_zeros, length_block by auto. lia.
        - apply Forall_app; split; [apply bytes_ok_block; auto|apply bytes_ok_zeros].
        - intros i Hi. destruct (Nat.lt_ge_cases i (8 * stateSizeBytes P)).
          + rewrite bit_app1 by (rewrite length_block; auto). unfold block.
            rewrite bit_firstn by auto. auto.
          + rewrite Ha by lia. unfold bit. rewrite app_nth2.
            * rewrite nth_zeros, N.bits_0. auto.
            * rewrite length_block by auto. apply Nat.div_le_lower_bound; lia. }
      destruct Hsw as [Hw1 [Hw2 Hw3]].
      rewrite <- Htail in H6 by (auto; intros; apply Hz; auto).
      rewrite Hsp in *. rewrite <- Htail in H7 by (auto; intros; apply Hz; auto).
      rewrite <- Htail in H8 by (auto; intros; apply Hz; auto).
      destruct sk as [a1 a2 [a3 a4 a5]], sk' as [b1 b2 [b3 b4 b5]]. subst pk. cbn in *.
      subst. reflexivity.
Qed.

Lemma C10_pf E sk pk P :
  env_bytes_ok E -> get_param_set (pk_params pk) = Some P -> constants_ok E P ->
  sk_wf sk -> pk_wf pk ->
  exists v, picnic_validate_keypair E (Some sk) (Some pk) = Ok v /\
    (v = true <-> sk_params sk = pk_params pk /\
                  lowmc_relation E P (sk_data sk) (pk_plaintext pk) (pk_ciphertext pk)).
Proof.
  intros HE HP HC Hs Hp. pose proof (validate_spec E HE sk pk P HP HC Hs Hp) as H.
  apply ok_ex in H. auto.
Qed.

Lemma C11_pf : exists (E : env) (sk : option privatekey) (pk : option publickey),
  pk = None /\ picnic_validate_keypair E sk pk = UB.
Proof.
  exists {| xof := fun _ _ n => zeros n; uninit := fun _ _ n => zeros n;
            LMatrix := fun _ _ => []; LMatrixInv := fun _ _ => []; KMatrix := fun _ _ => [];
            KMatrixInv := fun _ _ => []; RConstant := fun _ _ => [] |}, (Some zero_sk), None.
  auto.
Qed.

Lemma C11_all_pf E sk : picnic_validate_keypair E sk None = UB.
Proof. reflexivity. Qed.

Lemma C11_null_sk_pf E pk : picnic_validate_keypair E None (Some pk) = Ok false.
Proof. unfold picnic_validate_keypair. destruct (get_param_set _); auto. Qed.

Lemma C30_ids_pf p : (exists P, get_param_set p = Some P) <-> (1 <= p <= 12)%N.
Proof.
  split.
  - intros [P H]. pose proof (get_param_set_byte _ _ H) as [H1 H2].
    unfold is_valid_params in H2. lia.
  - intros H. apply get_param_set_valid. unfold is_valid_params, PARAMETER_SET_MAX_INDEX. lia.
Qed.

Definition sizes_b (p : N) (P : paramset) : bool :=
  (8 * (stateSizeBytes P - 1) <? stateSizeBits P) && (stateSizeBits P <=? 8 * stateSizeBytes P)
  && (32 * (stateSizeWords P - 1) <? stateSizeBits P) && (stateSizeBits P <=? 32 * stateSizeWords P)
  && (8 * (andSizeBytes P - 1) <? 3 * numSboxes P * numRounds P)
  && (3 * numSboxes P * numRounds P <=? 8 * andSizeBytes P)
  && (3 * numSboxes P <=? stateSizeBits P)
  && (4 * stateSizeWords P <=? 32)
  && (1 + 2 * stateSizeBytes P <=? 65) && (1 + 3 * stateSizeBytes P <=? 97)
  && (digestSizeBytes P <=? 64) && (seedSizeBytes P <=? 32) && (2 * seedSizeBytes P =? digestSizeBytes P)
  && (saltSizeBytes P =? 32) && (stateSizeBytes P <=? seedSizeBytes P + 1)
  && (if is_picnic3 p
      then (numMPCParties P =? 16) && (0 <? numOpenedRounds P)
           && (numOpenedRounds P <? numMPCRounds P)
           && (3 * numSboxes P =? stateSizeBits P)
      else (numMPCParties P =? 3) && (digestSizeBytes P <=? andSizeBytes P)
           && (24 * stateSizeWords P <=?
               Nat.max (9 * stateSizeBytes P) (stateSizeBytes P + andSizeBytes P))).

Lemma C30_sizes_pf p P : get_param_set p = Some P ->
  8 * (stateSizeBytes P - 1) < stateSizeBits P <= 8 * stateSizeBytes P
  /\ 32 * (stateSizeWords P - 1) < stateSizeBits P <= 32 * stateSizeWords P
  /\ 8 * (andSizeBytes P - 1) < 3 * numSboxes P * numRounds P <= 8 * andSizeBytes P
  /\ 3 * numSboxes P <= stateSizeBits P
  /\ 4 * stateSizeWords P <= 32
  /\ 1 + 2 * stateSizeBytes P <= 65 /\ 1 + 3 * stateSizeBytes P <= 97
  /\ digestSizeBytes P <= 64 /\ seedSizeBytes P <= 32 /\ digestSizeBytes P = 2 * seedSizeBytes P
  /\ saltSizeBytes P = 32
  /\ (is_picnic3 p = true ->
        numMPCParties P = 16 /\ 0 < numOpenedRounds P < numMPCRounds P
        /\ 3 * numSboxes P = stateSizeBits P)
  /\ (is_picnic3 p = false ->
        numMPCParties P = 3 /\ digestSizeBytes P <= andSizeBytes P
        /\ 24 * stateSizeWords P <=
           Nat.max (9 * stateSizeBytes P) (stateSizeBytes P + andSizeBytes P)).
Proof.
  intros H.
  assert (Hb : sizes_b p P = true).
  { revert p P H. apply params_forall. vm_compute. reflexivity. }
  unfold sizes_b in Hb. destruct (is_picnic3 p); repeat split; try discriminate; intros; lia.
Qed.

Lemma C30_size_max_pf p : (picnic_signature_size p <= PICNIC_MAX_SIGNATURE_SIZE)%N.
Proof.
  destruct (get_param_set p) as [P|] eqn:HP.
  - assert (Hb : N.leb (picnic_signature_size p) PICNIC_MAX_SIGNATURE_SIZE = true).
    { revert p P HP. apply (params_forall (fun p _ => N.leb (picnic_signature_size p) PICNIC_MAX_SIGNATURE_SIZE)).
      vm_compute. reflexivity. }
    lia.
  - unfold picnic_signature_size. rewrite HP. reflexivity.
Qed.

Lemma C31_pf E p : ~ (1 <= p <= 12)%N ->
  (forall rng pk sk, picnic_keygen E rng p pk sk = Ok (false, pk, sk))
  /\ (forall fuel sk msg buf len, sk_params sk = p ->
        picnic_sign E fuel sk msg buf len = Ok (false, buf, len))
  /\ (forall fuel pk msg s, pk_params pk = p -> picnic_verify E fuel pk msg s = Ok false)
  /\ picnic_signature_size p = PICNIC_MAX_SIGNATURE_SIZE
  /\ (forall pk buf len, pk_params pk = p -> picnic_write_public_key (Some pk) buf len = Ok (None, buf))
  /\ (forall sk buf len, sk_params sk = p -> picnic_write_private_key (Some sk) buf len = Ok (None, buf))
  /\ (forall pk b, picnic_read_public_key pk (Some (p :: b)) = Ok (false, pk))
  /\ (forall sk b, picnic_read_private_key sk (Some (p :: b)) = Ok (false, sk))
  /\ (forall sk pk, pk_params pk = p -> picnic_validate_keypair E sk (Some pk) = Ok false)
  /\ picnic_get_param_name p = "Unknown parameter set"%string.
Proof.
  intros Hp.
  assert (Hn : get_param_set p = None) by (apply get_param_set_none; lia).
  assert (Hv : is_valid_params p = false).
  { destruct (is_valid_params p) eqn:Hv; auto. apply get_param_set_valid in Hv.
    destruct Hv; congruence. }
  split. { intros. unfold picnic_keygen. rewrite Hv. auto. }
  split. { intros fuel sk msg buf len <-. unfold picnic_sign. rewrite Hn. auto. }
  split. { intros fuel pk msg s <-. unfold picnic_verify. rewrite Hn. auto. }
  split. { unfold picnic_signature_size. rewrite Hn. auto. }
  split. { intros pk buf len <-. apply write_public_key_unknown; auto. }
  split. { intros sk buf len <-. apply write_private_key_unknown; auto. }
  split. { intros [pk|] b; [|reflexivity]. simpl. rewrite Hv. auto. }
  split. { intros [sk|] b; [|reflexivity]. simpl. rewrite Hv. auto. }
  split. { intros sk pk <-. unfold picnic_validate_keypair. rewrite Hn. auto. }
  clear - Hp. destruct p as [|p]; auto.
  do 4 (destruct p as [p|p|]; auto; try lia).
Qed.

(** Names are pairwise distinct on the valid identifiers. *)
Lemma param_names_pf p q : (1 <= p <= 12)%N -> (1 <= q <= 12)%N ->
  picnic_get_param_name p = picnic_get_param_name q -> p = q.
Proof.
  intros Hp Hq.
  assert (p = 1 \/ p = 2 \/ p = 3 \/ p = 4 \/ p = 5 \/ p = 6 \/ p = 7 \/ p = 8 \/
          p = 9 \/ p = 10 \/ p = 11 \/ p = 12)%N as Hcp by lia.
  assert (q = 1 \/ q = 2 \/ q = 3 \/ q = 4 \/ q = 5 \/ q = 6 \/ q = 7 \/ q = 8 \/
          q = 9 \/ q = 10 \/ q = 11 \/ q = 12)%N as Hcq by lia.
  clear Hp Hq.
  repeat match goal with
         | H : _ \/ _ |- _ => destruct H as [->|H]
         end; subst; intros H; try reflexivity; discriminate H.
Qed.

(** ** Utilities *)
Lemma numBytes_least n : n <= 8 * numBytes n /\ forall k, n <= 8 * k -> numBytes n <= k.
Proof. pose proof (numBytes_spec n). split; [lia|]. intros; lia. Qed.

Lemma get_set_bit b i v :
  bytes_ok b -> i < 8 * List.length b ->
  exists b', setBit b i v = Ok b' /\ List.length b' = List.length b /\ bytes_ok b' /\
    getBit b' i = Ok v /\ (forall j, j <> i -> j < 8 * List.length b -> getBit b' j = getBit b j).
Proof.
  intros Hb Hi. pose proof (lt_div8 _ _ Hi) as Hd. rewrite setBit_ok by auto.
  eexists; split; [reflexivity|]. rewrite length_set_bit. split; auto.
  split; [apply bytes_ok_set_bit; auto|]. split.
  - rewrite getBit_ok by (rewrite length_set_bit; auto). rewrite bit_set_bit by auto.
    rewrite Nat.eqb_refl. auto.
  - intros j Hne Hj. pose proof (lt_div8 _ _ Hj).
    rewrite !getBit_ok by (rewrite ?length_set_bit; auto). rewrite bit_set_bit by auto.
    destruct (Nat.eqb_spec j i); auto; congruence.
Qed.

Lemma bit_oob b i v : 8 * List.length b <= i -> getBit b i = UB /\ setBit b i v = UB.
Proof.
  intros H. assert (List.length b <= i / 8) by (apply Nat.div_le_lower_bound; lia).
  unfold getBit, setBit, rd.
  destruct (nth_error b (i / 8)) eqn:He; [|auto].
  assert (i / 8 < List.length b) by (apply nth_error_Some; congruence). lia.
Qed.
