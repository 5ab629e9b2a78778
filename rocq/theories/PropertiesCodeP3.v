(** Property theorems: the multiparty computations of Picnic3 with pointers. *)

From Coq Require Import List NArith Arith Bool Lia.
From Verif Require Import Base Params Env Spec LowMC Picnic3 MiniC CodeLowMC CodeP3 CodeSpec CodeZkbSpec CodeP3Spec CodeP3Proto.
From Verif Require Import BaseFacts ParamFacts P3Tape P3Aux P3Online P3Mask CodeWitness CodeP3AuxThm CodeP3SimThm CodeP3Thm CodeP3Witness Witness.
Import ListNotations.

(** C62: the computation of the auxiliary bits on memory with pointers, for any tapes, with and without the mask of the
    key asked for: no access is out of bounds or misaligned; only the tape of the last party and the mask change, and
    they are what the signature model works with. *)
Theorem C62_computeAuxTape_code : forall U E P st tl qt qi,
  locals_ok U -> wfP3 P -> env_bytes_ok E -> constants_ok E P -> inverses_ok E P -> aux_call E P st tl qt qi ->
  exists st' t T' key, run U (c_computeAuxTape P 0 1 2 3 4 0 (IV 1)) st = Some (st', t) /\
    computeAuxTape E P (mkTapes tl 0) = Ok (mkTapes T' 0, key) /\
    (forall i, i < 15 -> nth i T' [] = nth i tl []) /\
    pts (nx st) (mm st') qt (nth 15 T' []) /\ (forall q, qi = Some q -> pts (nx st) (mm st') q key) /\
    chg (nx st) (mm st) (mm st') (aux_writes P qt qi) /\
    iv st' = upd (iv st) 0 0 /\ dv st' = dv st /\ pv st' = pv st /\ nx st' = nx st.
Proof. exact computeAuxTape_code. Qed.
Print Assumptions C62_computeAuxTape_code.

(** Sixteen tapes in a memory where every object has a block of its own. *)
Example C62_example : exists P, get_param_set Picnic3_L1 = Some P /\ wfP3 P /\ locals_ok zero_locals /\ env_bytes_ok toy_env /\ constants_ok toy_env P /\ inverses_ok toy_env P /\
  let tl := map (fun i => repeat (N.of_nat (5 * i)) (2 * andSizeBytes P)) (seq 0 16) in
  forall want, aux_call toy_env P (aux_start toy_env P tl want) tl (15, 0) (aux_inputs want).
Proof.
  destruct (get_param_set Picnic3_L1) as [P|] eqn:HP; [|discriminate HP]. exists P.
  pose proof (toy_constants_all _ _ HP) as HC. pose proof (toy_inverses_all _ _ HP) as HI.
  split; [reflexivity|]. split; [exact (get_param_set_wfP3 _ _ HP eq_refl)|]. split; [exact zero_locals_ok|]. split; [exact toy_env_bytes|]. split; [exact HC|]. split; [exact HI|]. intros tl want.
  assert (R : forall x k, (x < 256)%N -> bytes_ok (repeat x k)) by (intros x k Hx; apply Forall_forall; intros y Hy; apply repeat_spec in Hy; subst y; exact Hx).
  apply aux_start_call; [exact HC|exact HI|reflexivity|]. intros i Hi. unfold tl. rewrite nth_map_seq by exact Hi. split; [apply repeat_length|apply R; lia].
Qed.

(** C63: the online computation on memory with pointers, for signer (no party unopened) and verifier (any party
    unopened), whatever tapes, messages, masked key and public key contain: no access is out of bounds or misaligned;
    only the messages and the masks of the state change; messages and verdict are those of the signature model. *)
Theorem C63_simulateOnline_code : forall U E P st tl ml uo mk pt pub qm qs,
  locals_ok U -> wfP3 P -> env_bytes_ok E -> constants_ok E P -> online_call E P st tl ml uo mk pt pub qm qs ->
  exists st' t b ml', run U (c_simulateOnline P 0 (P0 0) 1 2 3 (P0 4) (P0 5) 6 7 8 0 1 2 3) st = Some (st', t) /\
    simulateOnline E P mk (mkTapes tl 0) (mkMsgs ml 0 uo) pt pub = Ok (b, mkMsgs ml' (stateSizeBits P * numRounds P) uo) /\
    dv st' 0 = (if b then 0 else 4294967295)%N /\ length ml' = 16 /\ (forall i, i < 16 -> pts (nx st) (mm st') (qm i) (nth i ml' [])) /\
    chg (nx st) (mm st) (mm st') (online_writes P qm qs) /\ nx st' = nx st /\ pv st' = pv st /\
    iv st' = upd (upd (iv st) 0 (2 * stateSizeBits P * numRounds P)) 1 (stateSizeBits P * numRounds P).
Proof. exact simulateOnline_code. Qed.
Print Assumptions C63_simulateOnline_code.

(** A verifier in a memory where every object has a block of its own. *)
Example C63_example : exists P, get_param_set Picnic3_L5 = Some P /\ wfP3 P /\ locals_ok zero_locals /\ env_bytes_ok toy_env /\ constants_ok toy_env P /\
  let tl := map (fun i => repeat (N.of_nat (5 * i)) (2 * andSizeBytes P)) (seq 0 16) in
  let ml := map (fun i => repeat (N.of_nat i) (andSizeBytes P)) (seq 0 16) in
  let b x := repeat x (4 * stateSizeWords P) in
  online_call toy_env P (online_start toy_env P tl ml (Some 7) (b 3%N) (b 4%N) (b 5%N)) tl ml (Some 7) (b 3%N) (b 4%N) (b 5%N) msg_ptr (35, 0).
Proof.
  destruct (get_param_set Picnic3_L5) as [P|] eqn:HP; [|discriminate HP]. exists P.
  pose proof (toy_constants_all _ _ HP) as HC. pose proof (get_param_set_wfP3 _ _ HP eq_refl) as H3.
  split; [reflexivity|]. split; [exact H3|]. split; [exact zero_locals_ok|]. split; [exact toy_env_bytes|]. split; [exact HC|]. intros tl ml b.
  assert (R : forall x k, (x < 256)%N -> bytes_ok (repeat x k)) by (intros x k Hx; apply Forall_forall; intros y Hy; apply repeat_spec in Hy; subst y; exact Hx).
  pose proof (sB_W P H3) as (B1 & _). pose proof (wf_W2 P (w3_wfP P H3)) as B2.
  apply online_start_call; [exact HC|reflexivity| |reflexivity| |intros u Hu; injection Hu as <-; lia|apply R; lia| |apply R; lia| |apply R; lia|]; unfold b; rewrite ?repeat_length; try lia;
    intros i Hi; unfold tl, ml; rewrite nth_map_seq by exact Hi; (split; [apply repeat_length|apply R; lia]).
Qed.

(** C64: constant time. What computing the auxiliary bits shows does not depend on what memory contains; what the
    online computation shows depends on it only through the outcomes of the comparison with the public key, so it is
    the same for any two runs that succeed. *)
Theorem C64_computeAuxTape_constant_time : forall U U' P x y,
  locals_ok U -> locals_ok U' -> same_public x y ->
  let c := c_computeAuxTape P 0 1 2 3 4 0 (IV 1) in
  observed (run U c x) = observed (run U' c y).
Proof. exact computeAuxTape_constant_time. Qed.
Print Assumptions C64_computeAuxTape_constant_time.

Theorem C64_simulateOnline_constant_time : forall U U' P x y x' t y' t',
  locals_ok U -> locals_ok U' -> same_public x y ->
  let c := c_simulateOnline P 0 (P0 0) 1 2 3 (P0 4) (P0 5) 6 7 8 0 1 2 3 in
  run U c x = Some (x', t) -> run U' c y = Some (y', t') ->
  (shown t = shown t' -> t = t') /\ (dv x' 0 = 0%N -> dv y' 0 = 0%N -> t = t').
Proof. exact simulateOnline_constant_time. Qed.
Print Assumptions C64_simulateOnline_constant_time.

(** Memories that differ in all tapes, messages, keys; a program that branches on a byte of a tape is told apart. *)
Example C64_example : exists P, get_param_set Picnic3_L1 = Some P /\
  let tl k := map (fun i => repeat (k + N.of_nat i)%N (2 * andSizeBytes P)) (seq 0 16) in
  let ml k := map (fun i => repeat (k * 2 + N.of_nat i)%N (andSizeBytes P)) (seq 0 16) in
  let b x := repeat x (4 * stateSizeWords P) in
  let st k := online_start toy_env P (tl k) (ml k) None (b (k + 3)%N) (b (k + 4)%N) (b (k + 5)%N) in
  same_public (aux_start toy_env P (tl 0%N) true) (aux_start toy_env P (tl 1%N) true) /\
  same_public (st 0%N) (st 1%N) /\
  (let c := Seq (Ld 1 0 (PV 1 (IC 0))) (IfD (DV 0) Skip (Ld 1 0 (PV 1 (IC 0)))) in
   observed (run zero_locals c (st 0%N)) <> observed (run zero_locals c (st 1%N))).
Proof.
  destruct (get_param_set Picnic3_L1) as [P|] eqn:HP; [|discriminate HP]. exists P.
  assert (N : forall (f g : nat -> bytes), (forall i, length (f i) = length (g i)) -> forall i, length (nth i (map f (seq 0 16)) []) = length (nth i (map g (seq 0 16)) [])).
  { intros f g H i. destruct (Nat.lt_ge_cases i 16) as [Hi|Hi]; [rewrite !nth_map_seq by exact Hi; apply H|rewrite !nth_overflow by (rewrite map_length, seq_length; exact Hi); reflexivity]. }
  split; [reflexivity|]. cbv zeta. split; [|split].
  - apply aux_same_public. apply N. intros i. rewrite !repeat_length. reflexivity.
  - apply online_same_public; rewrite ?repeat_length; auto; apply N; intros i; rewrite !repeat_length; reflexivity.
  - injection HP as <-. discriminate.
Qed.

(** C65: signer's preprocessing and online computation together compute LowMC. With tapes and mask as the first program
    leaves them and the masked key made from any key, the second program accepts exactly if the public key is the
    encryption of the plaintext under that key. *)
Theorem C65_online_is_lowmc_code : forall U U2 E P st tl ml msk key mk pt pub qm qs,
  locals_ok U -> locals_ok U2 -> wfP3 P -> env_bytes_ok E -> constants_ok E P -> inverses_ok E P ->
  preprocessed U E P tl msk -> masks P msk key mk -> online_call E P st tl ml None mk pt pub qm qs ->
  exists st' t, run U2 (c_simulateOnline P 0 (P0 0) 1 2 3 (P0 4) (P0 5) 6 7 8 0 1 2 3) st = Some (st', t) /\
    (is_ciphertext E P key pt pub -> dv st' 0 = 0%N) /\ (~ is_ciphertext E P key pt pub -> dv st' 0 = 4294967295%N).
Proof. exact online_is_lowmc. Qed.
Print Assumptions C65_online_is_lowmc_code.

(** Such tapes, mask, masked key and public key, for any key. *)
Example C65_example : exists P, get_param_set Picnic3_L1 = Some P /\ wfP3 P /\ forall key pt, bytes_ok pt -> length pt = 4 * stateSizeWords P ->
  exists tl msk mk pub, preprocessed zero_locals toy_env P tl msk /\ nth 2 tl [] = repeat 10%N (2 * andSizeBytes P) /\ masks P msk key mk /\ is_ciphertext toy_env P key pt pub /\
    online_call toy_env P (online_start toy_env P tl (zero_msgs P) None mk pt pub) tl (zero_msgs P) None mk pt pub msg_ptr (35, 0).
Proof.
  destruct (get_param_set Picnic3_L1) as [P|] eqn:HP; [|discriminate HP]. exists P.
  pose proof (toy_constants_all _ _ HP) as HC. pose proof (toy_inverses_all _ _ HP) as HI. pose proof (get_param_set_wfP3 _ _ HP eq_refl) as H3.
  split; [reflexivity|]. split; [exact H3|]. intros key pt Bp Lp.
  assert (R : forall x k, (x < 256)%N -> bytes_ok (repeat x k)) by (intros x k Hx; apply Forall_forall; intros y Hy; apply repeat_spec in Hy; subst y; exact Hx).
  destruct (signer_case zero_locals toy_env P (map (fun i => repeat (N.of_nat (5 * i)) (2 * andSizeBytes P)) (seq 0 16)) key pt zero_locals_ok H3 toy_env_bytes HC HI eq_refl) as (tl & msk & mk & pub & A1 & A2 & A3 & A4 & A5 & _).
  { intros i Hi. rewrite nth_map_seq by exact Hi. split; [apply repeat_length|apply R; lia]. }
  { exact Bp. } { exact Lp. }
  exists tl, msk, mk, pub. split; [exact A1|]. split; [rewrite A2 by lia; rewrite nth_map_seq by lia; reflexivity|]. split; [exact A3|]. split; [exact A4|exact A5].
Qed.

(** C66: signer and verifier programs agree. A verifier that holds, in a memory of its own, the tapes of all parties but
    one, the messages of that party found in the signer's memory, zeros for the other messages, and the masked key,
    recomputes all messages the signer's run left and reaches the same verdict. *)
Theorem C66_online_replays_code : forall U U2 E P st st2 tl tl2 ml ml2 u mk mk2 pt pub qm qs qm2 qs2 st' t,
  locals_ok U -> locals_ok U2 -> wfP3 P -> env_bytes_ok E -> constants_ok E P -> u < 16 ->
  online_call E P st tl ml None mk pt pub qm qs -> online_call E P st2 tl2 ml2 (Some u) mk2 pt pub qm2 qs2 ->
  run U (c_simulateOnline P 0 (P0 0) 1 2 3 (P0 4) (P0 5) 6 7 8 0 1 2 3) st = Some (st', t) ->
  (forall i, i < 16 -> nth i ml [] = zeros (andSizeBytes P)) ->
  (forall i, i < 16 -> i <> u -> nth i tl2 [] = nth i tl [] /\ nth i ml2 [] = zeros (andSizeBytes P)) ->
  pts (nx st) (mm st') (qm u) (nth u ml2 []) ->
  (forall i, i < stateSizeBits P -> bit mk2 i = bit mk i) ->
  exists st2' t2 ms, run U2 (c_simulateOnline P 0 (P0 0) 1 2 3 (P0 4) (P0 5) 6 7 8 0 1 2 3) st2 = Some (st2', t2) /\
    dv st2' 0 = dv st' 0 /\
    forall i, i < 16 -> length (nth i ms []) = andSizeBytes P /\ pts (nx st) (mm st') (qm i) (nth i ms []) /\ pts (nx st2) (mm st2') (qm2 i) (nth i ms []).
Proof. exact online_replays. Qed.
Print Assumptions C66_online_replays_code.

(** A run of the signer and a memory of the verifier as required, for each unopened party. *)
Example C66_example : exists P, get_param_set Picnic3_L3 = Some P /\ wfP3 P /\ forall u, u < 16 ->
  let b x := repeat x (4 * stateSizeWords P) in
  let tl := map (fun i => repeat (N.of_nat (5 * i)) (2 * andSizeBytes P)) (seq 0 16) in
  let st := online_start toy_env P tl (zero_msgs P) None (b 3%N) (b 4%N) (b 5%N) in
  let tl2 := list_set tl u (zeros (2 * andSizeBytes P)) in
  online_call toy_env P st tl (zero_msgs P) None (b 3%N) (b 4%N) (b 5%N) msg_ptr (35, 0) /\
  (forall i, i < 16 -> nth i (zero_msgs P) [] = zeros (andSizeBytes P)) /\
  exists st' t ml2, run zero_locals (c_simulateOnline P 0 (P0 0) 1 2 3 (P0 4) (P0 5) 6 7 8 0 1 2 3) st = Some (st', t) /\
    online_call toy_env P (online_start toy_env P tl2 ml2 (Some u) (b 3%N) (b 4%N) (b 5%N)) tl2 ml2 (Some u) (b 3%N) (b 4%N) (b 5%N) msg_ptr (35, 0) /\
    (forall i, i < 16 -> i <> u -> nth i tl2 [] = nth i tl [] /\ nth i ml2 [] = zeros (andSizeBytes P)) /\
    pts (nx st) (mm st') (msg_ptr u) (nth u ml2 []).
Proof.
  destruct (get_param_set Picnic3_L3) as [P|] eqn:HP; [|discriminate HP]. exists P.
  pose proof (toy_constants_all _ _ HP) as HC. pose proof (get_param_set_wfP3 _ _ HP eq_refl) as H3.
  split; [reflexivity|]. split; [exact H3|]. intros u Hu b tl st tl2.
  assert (R : forall x k, (x < 256)%N -> bytes_ok (repeat x k)) by (intros x k Hx; apply Forall_forall; intros y Hy; apply repeat_spec in Hy; subst y; exact Hx).
  pose proof (sB_W P H3) as (B1 & _). pose proof (wf_W2 P (w3_wfP P H3)) as B2.
  assert (HM : online_call toy_env P st tl (zero_msgs P) None (b 3%N) (b 4%N) (b 5%N) msg_ptr (35, 0)).
  { destruct (zero_msgs_rows P) as [Z1 Z2].
    apply online_start_call; [exact HC|reflexivity| |exact Z1|exact Z2|discriminate|apply R; lia| |apply R; lia| |apply R; lia|]; unfold b; rewrite ?repeat_length; try lia.
    intros i Hi; unfold tl; rewrite nth_map_seq by exact Hi; (split; [apply repeat_length|apply R; lia]). }
  split; [exact HM|]. split; [intros i Hi; apply nth_repeat_lt, Hi|].
  exact (replays_case zero_locals toy_env P st tl _ _ _ _ _ u zero_locals_ok H3 toy_env_bytes HC Hu HM).
Qed.

(** C67: signing does not show the key. Two signers with keys, tapes and public keys of their own, each public key being
    the encryption under the key, cannot be told apart by what the online computation shows. *)
Theorem C67_online_sign_constant_time : forall U U' V V' E P x y tl tl' ml ml' msk msk' key key' mk mk' pt pt' pub pub' qm qs qm' qs' x' t y' t',
  locals_ok U -> locals_ok U' -> locals_ok V -> locals_ok V' -> wfP3 P -> env_bytes_ok E -> constants_ok E P -> inverses_ok E P ->
  preprocessed V E P tl msk -> masks P msk key mk -> online_call E P x tl ml None mk pt pub qm qs -> is_ciphertext E P key pt pub ->
  preprocessed V' E P tl' msk' -> masks P msk' key' mk' -> online_call E P y tl' ml' None mk' pt' pub' qm' qs' -> is_ciphertext E P key' pt' pub' ->
  same_public x y ->
  let c := c_simulateOnline P 0 (P0 0) 1 2 3 (P0 4) (P0 5) 6 7 8 0 1 2 3 in
  run U c x = Some (x', t) -> run U' c y = Some (y', t') -> t = t'.
Proof. exact online_sign_constant_time. Qed.
Print Assumptions C67_online_sign_constant_time.

(** Signers as required, for any two keys. *)
Example C67_example : exists P, get_param_set Picnic3_L1 = Some P /\ wfP3 P /\ forall key key',
  let b x := repeat x (4 * stateSizeWords P) in
  exists tl msk mk pub tl' msk' mk' pub',
    preprocessed zero_locals toy_env P tl msk /\ masks P msk key mk /\ is_ciphertext toy_env P key (b 1%N) pub /\
    preprocessed zero_locals toy_env P tl' msk' /\ masks P msk' key' mk' /\ is_ciphertext toy_env P key' (b 2%N) pub' /\
    nth 2 tl [] <> nth 2 tl' [] /\
    let x := online_start toy_env P tl (zero_msgs P) None mk (b 1%N) pub in
    let y := online_start toy_env P tl' (zero_msgs P) None mk' (b 2%N) pub' in
    online_call toy_env P x tl (zero_msgs P) None mk (b 1%N) pub msg_ptr (35, 0) /\
    online_call toy_env P y tl' (zero_msgs P) None mk' (b 2%N) pub' msg_ptr (35, 0) /\ same_public x y.
Proof.
  destruct (get_param_set Picnic3_L1) as [P|] eqn:HP; [|discriminate HP]. exists P.
  pose proof (toy_constants_all _ _ HP) as HC. pose proof (toy_inverses_all _ _ HP) as HI. pose proof (get_param_set_wfP3 _ _ HP eq_refl) as H3.
  split; [reflexivity|]. split; [exact H3|]. intros key key' b.
  assert (R : forall x k, (x < 256)%N -> bytes_ok (repeat x k)) by (intros x k Hx; apply Forall_forall; intros y Hy; apply repeat_spec in Hy; subst y; exact Hx).
  assert (T : forall c, (c < 6)%N -> forall i, i < 16 -> length (nth i (map (fun i => repeat (c * N.of_nat i)%N (2 * andSizeBytes P)) (seq 0 16)) []) = 2 * andSizeBytes P /\
    bytes_ok (nth i (map (fun i => repeat (c * N.of_nat i)%N (2 * andSizeBytes P)) (seq 0 16)) [])).
  { intros c Hc i Hi. rewrite nth_map_seq by exact Hi. split; [apply repeat_length|apply R]. assert (N.of_nat i < 16)%N by lia. nia. }
  destruct (signer_case zero_locals toy_env P (map (fun i => repeat (2 * N.of_nat i)%N (2 * andSizeBytes P)) (seq 0 16)) key (b 1%N) zero_locals_ok H3 toy_env_bytes HC HI eq_refl (T 2%N eq_refl)) as (tl & msk & mk & pub & A1 & A2 & A3 & A4 & A5 & A6 & A7); [apply R; lia|apply repeat_length|].
  destruct (signer_case zero_locals toy_env P (map (fun i => repeat (3 * N.of_nat i)%N (2 * andSizeBytes P)) (seq 0 16)) key' (b 2%N) zero_locals_ok H3 toy_env_bytes HC HI eq_refl (T 3%N eq_refl)) as (tl' & msk' & mk' & pub' & B1 & B2 & B3 & B4 & B5 & B6 & B7); [apply R; lia|apply repeat_length|].
  exists tl, msk, mk, pub, tl', msk', mk', pub'. do 6 (split; [assumption|]). split.
  { rewrite A2, B2 by lia. rewrite !nth_map_seq by lia. injection HP as <-. discriminate. }
  cbv zeta. split; [exact A5|]. split; [exact B5|]. apply online_same_public; [|reflexivity|congruence|unfold b; rewrite !repeat_length; reflexivity|congruence].
  destruct (oc_tapes _ _ _ _ _ _ _ _ _ _ _ A5) as [L1 T1]. destruct (oc_tapes _ _ _ _ _ _ _ _ _ _ _ B5) as [L2 T2].
  intros i. destruct (Nat.lt_ge_cases i 16) as [Hi|Hi].
  2: { rewrite (@nth_overflow bytes tl), (@nth_overflow bytes tl'); [reflexivity|rewrite L2; exact Hi|rewrite L1; exact Hi]. }
  destruct (T1 i Hi) as (_ & _ & _ & X1). destruct (T2 i Hi) as (_ & _ & _ & X2). exact (eq_trans X1 (eq_sym X2)).
Qed.
