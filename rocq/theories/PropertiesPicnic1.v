(** Property theorems: ZKB++ signatures (Picnic FS, UR and full parameter sets). *)

From Coq Require Import List NArith Arith Bool.
From Verif Require Import Base Params Env Spec LowMC Picnic1 Api ApiSpec SigSpec.
From Verif Require Import ZkbApi ZkbProps ZkbSound Witness ZkbWitness.
Import ListNotations.

(** C01: what the signer produces the verifier accepts, also when the two runs see different
    contents of uninitialised memory.  [fuel] bounds the number of rehash steps of the challenge
    sampling loop; any fuel at least as large as the signer's will do for the verifier. *)
Theorem C01_sign_then_verify : forall E u P fuel fuel' sk pk msg buf len buf' l,
  get_param_set (sk_params sk) = Some P -> is_picnic3 (sk_params sk) = false ->
  env_bytes_ok E -> env_bytes_ok (with_uninit E u) -> constants_ok E P ->
  sk_wf sk -> padding_zero P (sk_data sk) -> pk_wf pk -> pk_of P sk pk ->
  len <= length buf -> fuel <= fuel' ->
  picnic_sign E fuel sk msg buf len = Ok (true, buf', l) ->
  picnic_verify (with_uninit E u) fuel' pk msg (firstn l buf') = Ok true.
Proof. exact C01_pf. Qed.
Print Assumptions C01_sign_then_verify.

Example C01_example : exists P buf' l,
  let E := const_env 85 in let p := Picnic_L3_UR in
  get_param_set (sk_params (toy_sk p)) = Some P /\
  env_bytes_ok E /\ env_bytes_ok (with_uninit E (fun _ _ n => repeat 7%N n)) /\ constants_ok E P /\
  sk_wf (toy_sk p) /\ padding_zero P (sk_data (toy_sk p)) /\ pk_wf (toy_pk p) /\
  pk_of P (toy_sk p) (toy_pk p) /\
  picnic_sign E 8 (toy_sk p) [1%N; 2%N] (zeros (sig_size p)) (sig_size p) = Ok (true, buf', l).
Proof.
  destruct (get_param_set Picnic_L3_UR) as [P|] eqn:HP; [|discriminate HP].
  destruct (zkb_setup 85 _ P eq_refl HP) as (H1 & H2 & H3 & H4 & H5 & H6 & H7 & H8 & H9 & _).
  destruct (const_signs 85 _ P [1%N; 2%N] (or_intror eq_refl) HP eq_refl) as (buf' & l & Hs).
  exists P, buf', l. cbv zeta. rewrite H5. exact (conj HP (conj H1 (conj H2 (conj H3 (conj H4 (conj H8 (conj H6 (conj H9 Hs)))))))).
Qed.

(** C13: reading back a serialised signature. *)
Theorem C13_signature_round_trip : forall E P p s buf len,
  get_param_set p = Some P -> is_picnic3 p = false -> env_bytes_ok E -> sig_struct_wf P s ->
  N.to_nat (picnic_signature_size p) <= len -> len <= length buf ->
  exists l buf' s',
    serializeSignature P s buf len = Ok (Some (l, buf')) /\
    deserializeSignature E P (firstn l buf') = Ok (Some s') /\ sig_same P s s'.
Proof. exact C13_pf. Qed.
Print Assumptions C13_signature_round_trip.

Example C13_example : exists P,
  get_param_set Picnic_L5_UR = Some P /\ sig_struct_wf P (zero_sig P) /\
  N.to_nat (picnic_signature_size Picnic_L5_UR) <= length (zeros (sig_size Picnic_L5_UR)).
Proof.
  destruct (get_param_set Picnic_L5_UR) as [P|] eqn:HP; [|discriminate HP].
  destruct (zkb_setup 0 _ P eq_refl HP) as (_ & _ & _ & _ & _ & _ & _ & _ & _ & _ & H11).
  exists P. rewrite H11. exact (conj eq_refl (conj (zero_sig_wf P) (le_n _))).
Qed.

(** C16 is false of the code: whatever the hash function and the key, every string of all-zero
    challenge whose length is at least the length the reader expects (which leaves out the input
    share inside G) but less than the full signature length makes the reader run past the end of
    the buffer. *)
Theorem C16_verify_reads_past_buffer_refuted : forall E P fuel pk msg sg,
  env_bytes_ok E -> get_param_set (pk_params pk) = Some P -> is_picnic3 (pk_params pk) = false ->
  transf P = TRANSFORM_UR -> bytes_ok sg ->
  (forall k, k < numMPCRounds P -> trit_at sg k = 0) ->
  ur_short_len P <= length sg < sig_size (pk_params pk) ->
  picnic_verify E fuel pk msg sg = UB.
Proof. exact C16_pf. Qed.
Print Assumptions C16_verify_reads_past_buffer_refuted.

Example C16_example : exists P sg,
  get_param_set (pk_params (toy_pk Picnic_L1_UR)) = Some P /\ transf P = TRANSFORM_UR /\ bytes_ok sg /\
  (forall k, k < numMPCRounds P -> trit_at sg k = 0) /\
  ur_short_len P <= length sg < sig_size (pk_params (toy_pk Picnic_L1_UR)).
Proof.
  destruct (get_param_set Picnic_L1_UR) as [P|] eqn:HP; [|discriminate HP].
  destruct (zkb_setup 0 _ P eq_refl HP) as (_ & _ & _ & _ & _ & _ & H7 & _).
  assert (Ht : transf P = TRANSFORM_UR) by (injection HP as <-; reflexivity).
  exists P, (zeros (ur_short_len P)). rewrite H7, BaseFacts.length_zeros.
  exact (conj HP (conj Ht (conj (Witness.bytes_ok_repeat 0 _ eq_refl)
    (conj (fun k _ => zeros_trit _ k) (conj (le_n _) (ur_short_lt _ P HP eq_refl Ht)))))).
Qed.

(** C17 is false of the code: accepted signatures stay accepted with any bytes appended. *)
Theorem C17_trailing_bytes_accepted_refuted : forall E P fuel pk msg sg rest,
  get_param_set (pk_params pk) = Some P -> is_picnic3 (pk_params pk) = false ->
  env_bytes_ok E -> constants_ok E P -> pk_wf pk -> bytes_ok sg -> bytes_ok rest ->
  picnic_verify E fuel pk msg sg = Ok true -> picnic_verify E fuel pk msg (sg ++ rest) = Ok true.
Proof. exact C17_pf. Qed.
Print Assumptions C17_trailing_bytes_accepted_refuted.

Example C17_example : exists sg,
  picnic_verify (const_env 85) 8 (toy_pk Picnic_L1_FS) [9%N] sg = Ok true.
Proof.
  destruct (get_param_set Picnic_L1_FS) as [P|] eqn:HP; [|discriminate HP].
  destruct (zkb_setup 85 _ P eq_refl HP) as (H1 & H2 & H3 & H4 & H5 & H6 & H7 & H8 & H9 & H10 & H11).
  destruct (const_signs 85 _ P [9%N] (or_intror eq_refl) HP eq_refl) as (buf' & l & Hs).
  exists (firstn l buf').
  refine (C01_pf (const_env 85) (uninit (const_env 85)) P 8 8 (toy_sk Picnic_L1_FS) (toy_pk Picnic_L1_FS) [9%N]
    (zeros (sig_size Picnic_L1_FS)) (sig_size Picnic_L1_FS) buf' l _ _ H1 H1 H3 H4 H8 H6 H9 _ (le_n _) Hs).
  - rewrite H5. exact HP.
  - rewrite H5. reflexivity.
  - rewrite H11. exact (le_n _).
Qed.

(** C22 (ZKB++): the challenge is well formed and independent of the buffer it is written into. *)
Theorem C22_challenge_well_formed_zkb : forall E P p fuel (pub pt : bytes)
    (vo cm gs : list (tri bytes)) (chal chal' salt msg : bytes),
  get_param_set p = Some P -> is_picnic3 p = false ->
  stateSizeBytes P <= length pub -> stateSizeBytes P <= length pt ->
  length salt = saltSizeBytes P ->
  length vo = numMPCRounds P -> length cm = numMPCRounds P -> length gs = numMPCRounds P ->
  (forall t j, In t vo -> j < 3 -> stateSizeBytes P <= length (tget t j)) ->
  (forall t j, In t cm -> j < 3 -> digestSizeBytes P <= length (tget t j)) ->
  (forall t j, In t gs -> j < 3 -> UnruhGWithInputBytes P <= length (tget t j)) ->
  length chal = numBytes (2 * numMPCRounds P) -> bytes_ok chal ->
  length chal' = numBytes (2 * numMPCRounds P) -> bytes_ok chal' ->
  H3 E P fuel pub pt vo cm chal salt msg gs = H3 E P fuel pub pt vo cm chal' salt msg gs /\
  match H3 E P fuel pub pt vo cm chal salt msg gs with
  | Ok c => challenge_wf P c
  | NoFuel => True
  | _ => False
  end.
Proof. exact C22_pf. Qed.
Print Assumptions C22_challenge_well_formed_zkb.

Example C22_zkb_example : exists P (t : tri bytes) (chal chal' : bytes),
  get_param_set Picnic_L1_UR = Some P /\
  length (zeros (saltSizeBytes P)) = saltSizeBytes P /\
  length (repeat t (numMPCRounds P)) = numMPCRounds P /\
  (forall t' j, In t' (repeat t (numMPCRounds P)) -> j < 3 -> stateSizeBytes P <= length (tget t' j) /\
     digestSizeBytes P <= length (tget t' j) /\ UnruhGWithInputBytes P <= length (tget t' j)) /\
  length chal = numBytes (2 * numMPCRounds P) /\ bytes_ok chal /\
  length chal' = numBytes (2 * numMPCRounds P) /\ bytes_ok chal' /\ chal <> chal'.
Proof.
  destruct (get_param_set Picnic_L1_UR) as [P|] eqn:HP; [|discriminate HP].
  exists P, (zeros 200, zeros 200, zeros 200), (zeros (numBytes (2 * numMPCRounds P))),
    (repeat 255%N (numBytes (2 * numMPCRounds P))).
  split; [reflexivity|]. split; [apply BaseFacts.length_zeros|]. split; [apply repeat_length|].
  split; [|split; [apply BaseFacts.length_zeros|split; [|split; [apply repeat_length|split]]]].
  - intros t' j Ht _. apply repeat_spec in Ht. subst t'. injection HP as <-.
    destruct j as [|[|j]]; repeat split; apply Nat.leb_le; vm_compute; reflexivity.
  - exact (bytes_ok_repeat 0 _ eq_refl).
  - exact (bytes_ok_repeat 255 _ eq_refl).
  - injection HP as <-. vm_compute. discriminate.
Qed.

(** C26: the three-party evaluation computes shares of the LowMC encryption. *)
Theorem C26_mpc_correct : forall E P p (tb : tri bytes) i0 i1 i2 pt slab,
  get_param_set p = Some P -> is_picnic3 p = false -> env_bytes_ok E -> constants_ok E P ->
  length pt = 32 -> bytes_ok pt ->
  (forall b, In b [i0; i1; i2] -> length b = stateSizeBytes P /\ bytes_ok b) ->
  (forall j, j < 3 -> andSizeBytes P <= length (tget tb j)) ->
  24 * stateSizeWords P <= slab ->
  let v b := mkView b (zeros (andSizeBytes P)) (zeros (stateSizeBytes P)) in
  exists w0 w1 w2,
    mpc_LowMC E P tb (v i0, v i1, v i2) pt slab = Ok (w0, w1, w2) /\
    (forall w, In w [w0; w1; w2] -> length (v_outputShare w) = stateSizeBytes P /\
                                    padding_zero P (v_outputShare w)) /\
    forall i, i < stateSizeBits P ->
      xorb (xorb (bit (v_outputShare w0) i) (bit (v_outputShare w1) i)) (bit (v_outputShare w2) i) =
      lowmc_enc (lowmc_of E P) (fun j => xorb (xorb (bit i0 j) (bit i1 j)) (bit i2 j)) (bit pt) i.
Proof. exact C26_pf. Qed.
Print Assumptions C26_mpc_correct.

Example C26_example : exists P, get_param_set Picnic_L5_FS = Some P /\
  constants_ok toy_env P /\ env_bytes_ok toy_env /\
  (forall b, In b [repeat 1%N (stateSizeBytes P); repeat 2%N (stateSizeBytes P); repeat 77%N (stateSizeBytes P)] ->
     length b = stateSizeBytes P /\ bytes_ok b) /\
  (forall j, j < 3 -> andSizeBytes P <=
     length (tget (repeat 3%N (andSizeBytes P), repeat 4%N (andSizeBytes P), repeat 5%N (andSizeBytes P)) j)).
Proof.
  destruct (get_param_set Picnic_L5_FS) as [P|] eqn:HP; [|discriminate HP]. exists P.
  split; [reflexivity|]. split; [exact (toy_constants_all _ P HP)|]. split; [exact toy_env_bytes|]. split.
  - intros b [<- | [<- | [<- | []]]]; (split; [apply repeat_length|apply bytes_ok_repeat; reflexivity]).
  - intros [|[|j]] _; cbn [tget fst snd]; rewrite repeat_length; exact (le_n _).
Qed.

(** C27: the verifier's work on the three openings of one round, all consistent with the same output
    shares and commitments, either contains a hash collision or yields a key of the public key. *)
Theorem C27_special_soundness : forall E P p,
  get_param_set p = Some P -> is_picnic3 p = false -> env_bytes_ok E -> constants_ok E P ->
  forall k (salt pub pt : bytes) (pr : nat -> proof) (chal : nat -> bytes) (vo cm : tri bytes)
    (gs : nat -> tri bytes) (wa wb : nat -> view) (tmp : bytes) (tape : duo bytes),
  block_wf pub -> block_wf pt -> length salt = saltSizeBytes P ->
  length tmp = Nat.max (6 * stateSizeBytes P) (stateSizeBytes P + andSizeBytes P) ->
  andSizeBytes P <= length (fst tape) -> andSizeBytes P <= length (snd tape) ->
  (forall c, c < 3 -> proof_wf P c (pr c)) ->
  (forall c, c < 3 -> 2 * k + 1 < 8 * length (chal c) /\ trit_at (chal c) k = c) ->
  (forall c, c < 3 -> verify_round E P k (pr c) (chal c) salt pub pt = Ok (vo, cm, gs c)) ->
  (forall c, c < 3 -> verifyProof E P (pr c) (allocateView P) (allocateView P) c salt k tmp pt tape
                      = Ok (wa c, wb c)) ->
  (exists j, j < 3 /\ let i := (j + 2) mod 3 in
     (collide E P HASH_PREFIX_0 (view_string E P (p_seed1 (pr j)) (wa j))
                                (view_string E P (p_seed2 (pr i)) (wb i)) \/
      collide E P HASH_PREFIX_4 (p_seed1 (pr j)) (p_seed2 (pr i)))) \/
  (forall key,
     (forall i, i < stateSizeBits P ->
        bit key i = xorb (xorb (bit (v_inputShare (wa 0)) i) (bit (v_inputShare (wa 1)) i))
                         (bit (v_inputShare (wa 2)) i)) ->
     lowmc_relation E P key pt pub).
Proof. exact C27_pf. Qed.
Print Assumptions C27_special_soundness.

Example C27_example : exists P (pr : nat -> proof) vo cm gs wa wb tmp tape,
  get_param_set Picnic_L1_FS = Some P /\
  let pk := toy_pk Picnic_L1_FS in
  block_wf (pk_ciphertext pk) /\ block_wf (pk_plaintext pk) /\ length (w_salt P) = saltSizeBytes P /\
  length tmp = Nat.max (6 * stateSizeBytes P) (stateSizeBytes P + andSizeBytes P) /\
  andSizeBytes P <= length (fst tape) /\ andSizeBytes P <= length (snd tape) /\
  (forall c, c < 3 -> proof_wf P c (pr c)) /\
  (forall c, c < 3 -> 2 * 0 + 1 < 8 * length (w_chal c) /\ trit_at (w_chal c) 0 = c) /\
  (forall c, c < 3 -> verify_round toy_env P 0 (pr c) (w_chal c) (w_salt P)
     (pk_ciphertext pk) (pk_plaintext pk) = Ok (vo, cm, gs c)) /\
  (forall c, c < 3 -> verifyProof toy_env P (pr c) (allocateView P) (allocateView P) c
     (w_salt P) 0 tmp (pk_plaintext pk) tape = Ok (wa c, wb c)).
Proof. exact C27_witness. Qed.

(** C29: lengths of signatures. *)
Theorem C29_signature_length : forall E P fuel sk msg buf len buf' l,
  get_param_set (sk_params sk) = Some P -> is_picnic3 (sk_params sk) = false ->
  env_bytes_ok E -> constants_ok E P -> sk_wf sk -> len <= length buf ->
  picnic_sign E fuel sk msg buf len = Ok (true, buf', l) ->
  l + (if is_UR (transf P) then 0 else stateSizeBytes P * zero_rounds P (firstn l buf')) =
  N.to_nat (picnic_signature_size (sk_params sk)) /\
  N.to_nat (picnic_signature_size (sk_params sk)) <= len.
Proof. exact sign_length. Qed.
Print Assumptions C29_signature_length.

Example C29_example : exists P buf' l,
  get_param_set (sk_params (toy_sk Picnic_L5_UR)) = Some P /\ is_UR (transf P) = true /\
  picnic_sign (const_env 0) 8 (toy_sk Picnic_L5_UR) [] (zeros (sig_size Picnic_L5_UR)) (sig_size Picnic_L5_UR)
    = Ok (true, buf', l).
Proof.
  destruct (get_param_set Picnic_L5_UR) as [P|] eqn:HP; [|discriminate HP].
  destruct (zkb_setup 0 _ P eq_refl HP) as (_ & _ & _ & _ & H5 & _).
  destruct (const_signs 0 _ P [] (or_introl eq_refl) HP eq_refl) as (buf' & l & Hs).
  assert (Ht : is_UR (transf P) = true) by (injection HP as <-; reflexivity).
  exists P, buf', l. rewrite H5. exact (conj HP (conj Ht Hs)).
Qed.

(** C36 is false of the code: a key pair that picnic_validate_keypair accepts but whose secret has a
    nonzero padding bit signs successfully, and the signature is rejected. *)
Theorem C36_padded_key_signs_badly_refuted : forall msg, exists sk pk buf' l,
  sk_params sk = Picnic_L1_full /\ sk_wf sk /\ pk_wf pk /\
  picnic_validate_keypair (const_env 85) (Some sk) (Some pk) = Ok true /\
  picnic_sign (const_env 85) 8 sk msg (zeros (sig_size Picnic_L1_full)) (sig_size Picnic_L1_full)
    = Ok (true, buf', l) /\
  forall fuel, picnic_verify (const_env 85) fuel pk msg (firstn l buf') = Ok false.
Proof. exact C36_witness. Qed.
Print Assumptions C36_padded_key_signs_badly_refuted.

(** C36, in general: such a signature is rejected unless all its challenges are 0. *)
Theorem C36_padded_key_signature_rejected : forall E P fuel fuel' sk pk msg buf len buf' l k,
  get_param_set (sk_params sk) = Some P -> is_picnic3 (sk_params sk) = false ->
  env_bytes_ok E -> constants_ok E P -> sk_wf sk -> ~ padding_zero P (sk_data sk) ->
  pk_wf pk -> pk_params pk = sk_params sk -> len <= length buf ->
  picnic_sign E fuel sk msg buf len = Ok (true, buf', l) ->
  k < numMPCRounds P -> trit_at (firstn l buf') k <> 0 ->
  picnic_verify E fuel' pk msg (firstn l buf') = Ok false.
Proof. exact C36_pf. Qed.
Print Assumptions C36_padded_key_signature_rejected.
