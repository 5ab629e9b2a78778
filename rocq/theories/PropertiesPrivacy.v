(** Property theorems: what the opened parties reveal. *)

From Coq Require Import List NArith Arith Bool.
From Verif Require Import Base Params Env Spec LowMC Picnic1 Picnic3 Api ApiSpec SigSpec P3Spec PrivacySpec.
From Verif Require Import BaseFacts ZkbPrivacy P3Privacy Witness ZkbWitness P3Witness PrivacyWitness.
Import ListNotations.

(** C43: for any other key share b of the unopened party h there is a tape for h under which the two
    opened parties' views are the same, to the byte; the tape bits used are determined by b, so b and the tape
    are in bijection; and if the key shared that way has the same ciphertext, the output share of h is
    the same as well. *)
Theorem C43_two_views_hide_third : forall E P p (tb : tri bytes) i0 i1 i2 pt slab h b,
  get_param_set p = Some P -> is_picnic3 p = false -> env_bytes_ok E -> constants_ok E P ->
  length pt = 32 -> bytes_ok pt ->
  (forall x, In x [i0; i1; i2; b] -> length x = stateSizeBytes P /\ bytes_ok x) ->
  (forall j, j < 3 -> andSizeBytes P <= length (tget tb j)) ->
  24 * stateSizeWords P <= slab -> h < 3 ->
  let v x := mkView x (zeros (andSizeBytes P)) (zeros (stateSizeBytes P)) in
  let run t x := mpc_LowMC E P (tset tb h t) (tset (v i0, v i1, v i2) h (v x)) pt slab in
  exists ws t ws',
    mpc_LowMC E P tb (v i0, v i1, v i2) pt slab = Ok ws /\
    length t = andSizeBytes P /\ bytes_ok t /\ run t b = Ok ws' /\
    (forall j, j < 3 -> j <> h -> tget ws' j = tget ws j) /\
    (forall t2 ws2, andSizeBytes P <= length t2 -> run t2 b = Ok ws2 ->
       (forall j, j < 3 -> j <> h -> tget ws2 j = tget ws j) ->
       forall q, q < 3 * numSboxes P * numRounds P -> bit t2 q = bit t q) /\
    ((forall i, i < stateSizeBits P ->
        lowmc_enc (lowmc_of E P) (shared_key ws') (bit pt) i = lowmc_enc (lowmc_of E P) (shared_key ws) (bit pt) i) ->
     v_outputShare (tget ws' h) = v_outputShare (tget ws h)).
Proof. exact C43_pf. Qed.
Print Assumptions C43_two_views_hide_third.

Example C43_example : exists P, get_param_set Picnic_L5_FS = Some P /\
  constants_ok toy_env P /\ env_bytes_ok toy_env /\
  (forall x, In x [repeat 1%N (stateSizeBytes P); repeat 2%N (stateSizeBytes P); repeat 77%N (stateSizeBytes P);
                   repeat 200%N (stateSizeBytes P)] ->
     length x = stateSizeBytes P /\ bytes_ok x) /\
  (forall j, j < 3 -> andSizeBytes P <=
     length (tget (repeat 3%N (andSizeBytes P), repeat 4%N (andSizeBytes P), repeat 5%N (andSizeBytes P)) j)) /\
  24 * stateSizeWords P <= 768.
Proof.
  destruct (get_param_set Picnic_L5_FS) as [P|] eqn:HP; [|discriminate HP]. exists P.
  split; [reflexivity|]. split; [exact (toy_constants_all _ P HP)|]. split; [exact toy_env_bytes|]. split; [|split].
  - intros b [<- | [<- | [<- | [<- | []]]]]; (split; [apply repeat_length|apply bytes_ok_repeat; reflexivity]).
  - intros [|[|j]] _; cbn [tget fst snd]; rewrite repeat_length; exact (le_n _).
  - revert HP. vm_compute. intros [= <-]. apply Nat.leb_le. reflexivity.
Qed.

(** C44: the tapes, masked key and messages of a Picnic3 opening fit every key of the public key: for
    every other key' of the same public key and every hidden party h there is a tape of h under which
    preprocessing and the online phase leave the same masked key, the same tapes of the other parties
    (with the auxiliary bits) and the same messages, h's included; and up to the bits never revealed
    that tape is unique.  The commitment of h, which an opening also contains, is not part of this
    statement; see C52. *)
Theorem C44_online_hides_key : forall E P p tl h key key' mk pt pub tp mask,
  get_param_set p = Some P -> is_picnic3 p = true ->
  env_bytes_ok E -> constants_ok E P -> inverses_ok E P -> tapes_wf P tl -> h < numMPCParties P ->
  block_wf mk -> block_wf pt -> block_wf pub ->
  lowmc_relation E P key pt pub -> lowmc_relation E P key' pt pub ->
  computeAuxTape E P (mkTapes tl 0) = Ok (tp, mask) ->
  (forall i, i < stateSizeBits P -> bit mk i = xorb (bit key i) (bit mask i)) ->
  exists ms, simulateOnline E P mk tp (allocateMsgs P) pt pub = Ok (true, ms) /\
  let explains t :=
    length t = p3_tapeSize P /\ bytes_ok t /\
    exists tp' mask', computeAuxTape E P (mkTapes (list_set tl h t) 0) = Ok (tp', mask') /\
      (forall i, i < stateSizeBits P -> bit mk i = xorb (bit key' i) (bit mask' i)) /\
      simulateOnline E P mk tp' (allocateMsgs P) pt pub = Ok (true, ms) /\
      (forall i, i < numMPCParties P -> i <> h -> nth i (tp_tape tp') [] = nth i (tp_tape tp) []) in
  (exists t, explains t) /\
  (forall t1 t2, explains t1 -> explains t2 ->
     forall j q, j < numRounds P -> q < stateSizeBits P ->
       let pos := 2 * stateSizeBits P * j + q in
       bit t1 pos = bit t2 pos /\
       (h <> numMPCParties P - 1 -> bit t1 (pos + stateSizeBits P) = bit t2 (pos + stateSizeBits P))).
Proof. exact C44_pf. Qed.
Print Assumptions C44_online_hides_key.

(** Two different keys with one public key, so that the theorem says more than that h's tape exists. *)
Example C44_example : exists P tp mask mk, get_param_set Picnic3_L1 = Some P /\
  env_bytes_ok count_env /\ constants_ok count_env P /\ inverses_ok count_env P /\ tapes_wf P (toy_tapes P) /\
  block_wf mk /\ block_wf zero_block /\ block_wf twin_ct /\ bit twin_a 24 <> bit twin_b 24 /\
  lowmc_relation count_env P twin_a zero_block twin_ct /\ lowmc_relation count_env P twin_b zero_block twin_ct /\
  computeAuxTape count_env P (mkTapes (toy_tapes P) 0) = Ok (tp, mask) /\
  (forall i, i < stateSizeBits P -> bit mk i = xorb (bit twin_a i) (bit mask i)).
Proof.
  destruct (get_param_set Picnic3_L1) as [P|] eqn:HP; [|discriminate HP].
  destruct (p3_setup _ P HP) as (H1 & H2 & H3 & H4 & _).
  destruct (twins P HP) as (T1 & T2 & T3 & T4 & T5 & T6 & T7).
  destruct (twin_setup P HP) as (tp & mask & mk & S1 & S2 & S3).
  exists P, tp, mask, mk.
  exact (conj eq_refl (conj H1 (conj H3 (conj H4 (conj (toy_tapes_wf P) (conj S2 (conj T4 (conj T3 (conj T5
    (conj T6 (conj T7 (conj S1 S3)))))))))))).
Qed.
