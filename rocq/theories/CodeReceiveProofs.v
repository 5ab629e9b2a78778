(** Verification as offered to callers on memory: reading the signature, then verifying it. *)

From Coq Require Import List NArith Arith Bool Lia ZifyBool ZifyNat ZifyN.
From Verif Require Import Base Params Env Spec LowMC Picnic1 MiniC CodeLowMC CodeSpec HashSpec CodeZkbSpec CodeHashUses CodeVerRoundSpec CodeVerAll CodeVerAllSpec CodeDeserialize CodeDeserializeSpec
  Api ApiSpec BaseFacts ParamFacts MiniCFacts CodeRules CodeHeap CodeP3Lin ZkbMpc Zkb ZkbCodec ZkbRound ZkbChal ApiFacts CodeVerAllProofs CodeDeserializeProofs.
From Verif Require HashProofs CodeSignThm.
From Verif Require ZkbWitness SigSpec.
Import ListNotations.
Local Open Scope c_scope.

Lemma reads_sub st ws ws' p l : reads st ws p l -> (forall x, In x ws' -> In x ws) -> reads st ws' p l.
Proof. intros (A & B & C) H. split; [exact A|]. split; [exact B|]. intros p' k Hi. apply C, H, Hi. Qed.

Lemma challenges_held E P sg s : wfP1 P -> deserializeSignature E P sg = Ok (Some s) -> forall k, k < numMPCRounds P -> exists ch, getChallenge (s_challengeBits s) k = Ok ch /\ ch < 3.
Proof.
  intros HP1 H k Hk. unfold deserializeSignature in H. cbv zeta in H. destruct (Nat.ltb_spec (length sg) (numBytes (2 * numMPCRounds P))) as [|L]; [discriminate|]. inv_bind H.
  destruct (length sg <? _); [discriminate|]. rewrite slice0_ok in H by exact L. cbn [bind] in H.
  destruct (isChallengeValid_spec P (firstn (numBytes (2 * numMPCRounds P)) sg)) as (v & Ev & Hv); [rewrite firstn_length; lia|]. rewrite Ev in H. cbn [bind] in H. destruct v; [|discriminate]. cbn [negb] in H.
  inv_bind H. inv_bind H. destruct x1 as [l|]; [|discriminate]. injection H as <-. cbn [s_challengeBits]. eexists. split; [|apply (proj1 Hv eq_refl k Hk)]. apply getChallenge_ok. rewrite firstn_length. pose proof (numBytes_spec (2 * numMPCRounds P)). lia.
Qed.

Theorem picnic_verify_code U E P st q g ps sg pk msg fuel :
  locals_ok U -> get_param_set (pk_params pk) = Some P -> is_picnic3 (pk_params pk) = false -> pk_params pk <> Picnic_L1_full -> env_bytes_ok E -> constants_ok E P -> pk_wf pk ->
  received_call P E st q g ps sg (pk_ciphertext pk) (firstn (4 * stateSizeWords P) (pk_plaintext pk)) msg ->
  match picnic_verify (with_shake E) fuel pk msg sg with
  | UB => transf P = TRANSFORM_UR /\ (length (mm st (fst ps)) = snd ps + length sg -> run U (c_picnic_verify P (length msg) fuel) st = None)
  | Abort => False
  | r => exists st' t, run U (c_picnic_verify P (length msg) fuel) st = Some (st', t) /\
      nx st' = nx st /\ chg (nx st) (mm st) (mm st') (allocated P q g) /\
      match r with Ok b => iv st' 6 = (if b then 1 else 0) | _ => iv st' 5 = 1 /\ iv st' 2 = 0 end
  end.
Proof.
  intros HU HP Hp Hf HE HC HW HR. set (pub := pk_ciphertext pk) in *. set (pt := pk_plaintext pk) in *. set (pt' := firstn (4 * stateSizeWords P) pt) in *.
  pose proof (get_param_set_wfP1 _ P HP Hp) as HP1. pose proof (wf_W3 P (w1_wfP P HP1)) as W3.
  assert (Lpt : 4 * stateSizeWords P <= length pt) by (destruct HW as ([Hl _] & _); unfold pt; rewrite Hl; exact W3).
  assert (Pb : 5 <= parts P <= 6 /\ (is_UR (transf P) = true -> parts P = 6)) by (unfold parts; destruct (is_UR (transf P)); split; try lia; intros X; try discriminate X; reflexivity). destruct Pb as [Pb PU].
  set (y := mkState (args 0 [iv st 10]) (args 0%N []) (args [] [pv st 25; pv st 20; pv st 11; pv st 24]) (mm st) (nx st) (ct st)).
  assert (HY : deserialize_call P (with_shake E) y g ps sg).
  { destruct HR. destruct rc_views as (V1 & V2 & _). split; cbn [y iv pv args nth]; auto.
    destruct rc_fresh. split; auto. }
  assert (HE' : env_bytes_ok (with_shake E)) by (apply HashProofs.shake_env; exact HE).
  pose proof (deserialize_code U (with_shake E) _ P y g ps sg HP Hp HE' HY) as HD.
  unfold picnic_verify. rewrite HP, Hp. cbn [negb]. fold pub pt.
  destruct (deserializeSignature (with_shake E) P sg) as [r| | |] eqn:Ed; cbn [bind]; [|destruct HD as [HD1 HD2]; split; [exact HD1|]|contradiction|contradiction].
  2:{ intros Hend. specialize (HD2 Hend). change (fails U (c_picnic_verify P (length msg) fuel) st). unfold c_picnic_verify. apply fails_seq, runs_iset. unfold set_iv. cbn [ieval]. apply fails_seq1.
    unfold fails. cbn [run pargevals pargeval pevals pv]. cbn [map ieval iv dv pv mm nx ct]. rewrite upd_neq by discriminate. fold y. rewrite HD2. reflexivity. }
  destruct HD as (z & t & Rz & Nz & Cz & Mz). cbn [y nx mm] in Nz, Cz.
  set (res := match r with Some s => verify (with_shake E) P fuel s pub pt msg | None => Ok false end).
  enough (R : runs U (c_picnic_verify P (length msg) fuel) st (fun x => nx x = nx st /\ chg (nx st) (mm st) (mm x) (allocated P q g) /\
    match res with Ok b => iv x 6 = (if b then 1 else 0) | NoFuel => iv x 5 = 1 /\ iv x 2 = 0 | _ => False end)).
  { unfold runs in R. destruct (run U (c_picnic_verify P (length msg) fuel) st) as [[x t']|]; [|contradiction]. destruct R as (R1 & R2 & R3). destruct res; try contradiction; exists x, t'; auto. }
  unfold c_picnic_verify. apply runs_seq, runs_iset. unfold set_iv. cbn [ieval]. apply runs_seq.
  eapply runs_call; [cbn [pargevals pargeval pevals pv]; reflexivity|]. cbn [map ieval iv dv pv mm nx ct]. rewrite upd_neq by discriminate. fold y.
  unfold runs at 1. rewrite Rz. cbn [copy_back fst snd].
  assert (CQ : chg (nx st) (mm st) (mm z) (allocated P q g)).
  { apply (chg_mono _ _ _ _ _ Cz). intros p n Hi _. exists p, n. split; [apply in_or_app; auto|]. lia. }
  set (w := mkState _ _ _ (mm z) (nx z) _).
  assert (WB : iv w 5 = iv z 5 /\ iv w 6 = 0 /\ pv w = pv st /\ mm w = mm z /\ nx w = nx st) by (repeat split; assumption). clearbody w. destruct WB as (W5 & W6 & WP & WM & WN).
  destruct r as [s|].
  2:{ eapply runs_if; [cbn [ceval ieval]; rewrite W5, Mz; reflexivity|]. cbn [Nat.eqb]. apply runs_skip. unfold res. rewrite WM. auto. }
  destruct Mz as [Z5 Zs]. eapply runs_if; [cbn [ceval ieval]; rewrite W5, Z5; reflexivity|]. cbn [Nat.eqb]. apply runs_seq.
  eapply runs_call; [cbn [pargevals pargeval pevals]; reflexivity|]. cbn [map]. rewrite WP. set (v := mkState _ _ _ _ _ _).
  assert (Vn : nx v = nx st) by exact WN. assert (Vm : mm v = mm z) by exact WM.
  (* What deserialization leaves alone. *)
  assert (InS : forall x, In x (sig_writes P g) -> In x (allocated P q g)) by (intros x Hx; apply in_or_app; auto).
  assert (InV : forall x, In x (verify_writes P q) -> In x (allocated P q g)) by (intros x Hx; apply in_or_app; auto).
  assert (Rd : forall p l, reads st (allocated P q g) p l -> reads v (verify_writes P q) p l).
  { intros p l (A & B & C). split; [rewrite Vn, Vm; apply (pts_chg _ _ _ _ _ _ Cz A); intros p' k Hi; apply C, InS, Hi|]. split; [exact B|]. intros p' k Hi. apply C, InV, Hi. }
  pose proof (rc_apart _ _ _ _ _ _ _ _ _ _ HR) as Ap.
  assert (Len : length (verify_writes P q) = all_count P) by (unfold verify_writes; rewrite map_length; apply seq_length).
  assert (Av : forall j, j < all_count P -> nth_error (allocated P q g) j = Some (q j, all_size P j)).
  { intros j Hj. unfold allocated. rewrite nth_error_app1 by lia. unfold verify_writes. apply (CodeSignThm.nth_map_seq (fun j => (q j, all_size P j))), Hj. }
  assert (As : forall i, i < sig_count P -> nth_error (allocated P q g) (all_count P + i) = Some (g i, sig_size P i)).
  { intros i Hi. unfold allocated. rewrite nth_error_app2 by lia. rewrite Len. replace (all_count P + i - all_count P) with i by lia. unfold sig_writes. apply (CodeSignThm.nth_map_seq (fun j => (g j, sig_size P j))), Hi. }
  assert (Hd : forall j l, j < all_count P -> CodeZkbSpec.holds st (q j) l -> length l = all_size P j -> CodeZkbSpec.holds v (q j) l).
  { intros j l Hj [A B] Hl. split; [|exact B]. rewrite Vn, Vm. apply (pts_chg _ _ _ _ _ _ Cz A). intros p k Hi. unfold sig_writes in Hi. apply in_map_iff in Hi. destruct Hi as (i & Ei & Hi). injection Ei as <- <-. apply in_seq in Hi. rewrite Hl.
    apply (Ap (all_count P + i) j); [apply As; lia|apply Av, Hj|lia]. }
  (* The signature, now only read. *)
  assert (Sg : forall i n l, i < sig_count P -> sig_size P i = n -> filled z (g i) n l -> reads v (verify_writes P q) (g i) l /\ length l = n).
  { intros i n l Hi Hn [[A B] C]. split; [|exact C]. split; [rewrite Vn, Vm, <- Nz; exact A|]. split; [exact B|]. intros p k Hp'. unfold verify_writes in Hp'. apply in_map_iff in Hp'. destruct Hp' as (j & Ej & Hj). injection Ej as <- <-. apply in_seq in Hj.
    rewrite C, <- Hn. apply (Ap j (all_count P + i)); [apply Av; lia|apply As, Hi|lia]. }
  assert (Pl : forall k e, k < numMPCRounds P -> e < parts P -> part_at P k e < sig_count P /\ sig_size P (part_at P k e) = part_size P e).
  { intros k e Hk He. split; [unfold part_at, sig_count; nia|]. unfold sig_size, part_at. cbn [Nat.add Nat.eqb]. replace (S (S (parts P * k + e)) - 2) with (e + k * parts P) by lia. rewrite Nat.mod_add, Nat.mod_small by lia. reflexivity. }
  assert (HV : verify_call P E v q s pub pt' msg).
  { destruct HR as [_ _ _ _ R5 R6 R7 R8 R9 R10 R11 R12 R13 R14 R15 R16 R17 _ (V1 & V2 & V3)]. destruct Zs as (S1 & S2 & _ & S4).
    assert (Cst : forall a n f, CodeZkbSpec.constants st a n f (allocated P q g) -> pv v a = pv st a -> CodeZkbSpec.constants v a n f (verify_writes P q)).
    { intros a n f H Ea i Hi. destruct (H i Hi) as (p & A & B & C). exists p. rewrite Ea. auto. }
    split.
    - intros i j p k p' l Hi Hj. apply (Ap i j); unfold allocated; rewrite nth_error_app1; auto; apply nth_error_Some; congruence.
    - intros j Hj. destruct (R5 j Hj) as (l & A & B). exists l. auto.
    - intros x k Hx Hk. pose proof (per_count P). pose proof (per_pos P). assert (Hpl : place P x k < all_count P) by (apply place_lt; [lia|exact Hk]). apply (Hd _ _ Hpl); [apply R6; assumption|]. rewrite length_zeros, place_size by lia. reflexivity.
    - exact R7.
    - exact R8.
    - exact R9.
    - exact R10.
    - destruct R11 as (p & A & B & C). exists p. auto.
    - apply Cst; [exact R12|reflexivity].
    - apply Cst; [exact R13|reflexivity].
    - apply Cst; [exact R14|reflexivity].
    - destruct R15 as (p & A & B & C). exists p. auto.
    - exists (g 0). split; [exact V1|]. apply (Sg 0); [unfold sig_count; lia|reflexivity|exact S1].
    - destruct R16 as (p & A & B & C). exists p. auto.
    - exists (g 1). split; [exact V2|]. apply (Sg 1); [unfold sig_count; lia|reflexivity|exact S2].
    - destruct R17 as (p & A & B & C). exists p. auto.
    - exact (challenges_held _ P sg s HP1 Ed).
    - intros k Hk. destruct (S4 k Hk) as (pr & N1 & N2). exists pr. split; [exact N1|]. destruct (V3 k Hk) as (Q10 & Q12 & Q16 & Q17 & Q18).
      assert (X : forall e, e < parts P -> reads v (verify_writes P q) (g (part_at P k e)) (proof_part pr e) /\ length (proof_part pr e) = part_size P e).
      { intros e He. destruct (Pl k e Hk He) as [X1 X2]. apply (Sg _ _ _ X1 X2). apply N2, He. }
      unfold entry. split; [intros e He; destruct (X e ltac:(lia)) as [X1 X2]; split; [exists (g (part_at P k e)); split; [apply Q10, He|]|]; destruct e as [|[|e]]; try (exfalso; lia); assumption|].
      destruct (X 2 ltac:(lia)) as [X21 X22], (X 3 ltac:(lia)) as [X31 X32], (X 4 ltac:(lia)) as [X41 X42].
      split; [eauto|]. split; [exact X22|]. split; [eauto|]. split; [exact X32|]. split; [eauto|]. split; [exact X42|].
      intros Hu. destruct (X 5 ltac:(specialize (PU Hu); lia)) as [X51 X52]. split; [eauto|exact X52]. }
  destruct (verify_code U E _ P v q s pub pt' msg fuel HU HP Hp Hf HE HC HV) as (x & t' & Rx & Cx & Nx & Mx). rewrite Vn, Vm in Cx. rewrite Vn in Nx.
  unfold runs at 1. rewrite Rx. cbn [copy_back fst snd].
  assert (CX : chg (nx st) (mm st) (mm x) (allocated P q g)) by (eapply chg_trans; [exact CQ|exact Cx|auto|exact InV]).
  set (u := mkState _ _ _ (mm x) (nx x) _). assert (UB' : iv u 2 = iv x 2 /\ iv u 3 = iv x 3 /\ iv u 5 = 1 /\ iv u 6 = 0 /\ mm u = mm x /\ nx u = nx x) by (repeat split; cbn [u iv upd Nat.eqb]; congruence). clearbody u. destruct UB' as (U2 & U3 & U5 & U6 & UM & UN).
  unfold res. rewrite <- (verify_trunc (with_shake E) P (w1_wfP P HP1) pt Lpt fuel s pub msg). fold pt'.
  destruct (verify (with_shake E) P fuel s pub pt' msg) as [b| | |]; try contradiction.
  - destruct Mx as [X2 X3]. eapply runs_if; [cbn [ceval ieval]; rewrite U2, X2; reflexivity|]. cbn [Nat.eqb]. apply runs_iset. unfold set_iv. cbn [iv mm nx ieval]. rewrite upd_eq, UM, UN. split; [exact Nx|]. split; [exact CX|]. congruence.
  - eapply runs_if; [cbn [ceval ieval]; rewrite U2, Mx; reflexivity|]. cbn [Nat.eqb]. apply runs_skip. rewrite UM, UN. split; [exact Nx|]. split; [exact CX|]. split; congruence.
Qed.

(** The reader runs past the buffer on memory too. *)
Theorem reads_past_code U E P st q g ps sg pk msg fuel :
  locals_ok U -> get_param_set (pk_params pk) = Some P -> is_picnic3 (pk_params pk) = false -> env_bytes_ok E -> constants_ok E P -> pk_wf pk ->
  transf P = TRANSFORM_UR -> (forall k, k < numMPCRounds P -> SigSpec.trit_at sg k = 0) -> ZkbWitness.ur_short_len P <= length sg < ZkbWitness.sig_size (pk_params pk) ->
  received_call P E st q g ps sg (pk_ciphertext pk) (firstn (4 * stateSizeWords P) (pk_plaintext pk)) msg -> length (mm st (fst ps)) = snd ps + length sg ->
  run U (c_picnic_verify P (length msg) fuel) st = None.
Proof.
  intros HU HP Hp HE HC HW Ht Hz Hl HR Hend. assert (Bs : bytes_ok sg) by apply (rc_sig _ _ _ _ _ _ _ _ _ _ HR).
  assert (Hf : pk_params pk <> Picnic_L1_full) by (intros X; rewrite X in HP; injection HP as <-; discriminate Ht).
  pose proof (picnic_verify_code U E P st q g ps sg pk msg fuel HU HP Hp Hf HE HC HW HR) as H.
  rewrite (ZkbWitness.C16_pf (with_shake E) P fuel pk msg sg) in H by (auto; apply HashProofs.shake_env; exact HE). apply H, Hend.
Qed.
