(** A memory in which the verifier's ZKB++ computation can be called. *)

From Coq Require Import List NArith Arith Bool Lia ZifyBool ZifyNat ZifyN.
From Verif Require Import Base Params Env Spec LowMC Picnic1 MiniC CodeLowMC CodeZkb CodeSpec CodeZkbSpec CodeVerifySpec.
From Verif Require Import BaseFacts ParamFacts LowMCFacts ZkbMpc MiniCFacts CodeRules CodeWitness CodeZkbRun CodeZkbThm CodeZkbWitness CodeZkbVer CodeZkbVerRun CodeZkbVerThm Witness.
Import ListNotations.

(** Every object in a block of its own. *)
Definition ver_memory (E : env) (P : paramset) (T : nat -> bytes) (V : nat -> view) (pt : bytes) : memory := fun b =>
  match b with
  | 0 | 1 => T b
  | 2 | 3 => v_inputShare (V (b - 2))
  | 4 | 5 => v_communicatedBits (V (b - 4))
  | 6 | 7 => v_outputShare (V (b - 6))
  | 8 => pt
  | 9 => zeros (16 * stateSizeWords P)
  | _ => tables E P (b - 10)
  end.
Definition ver_start (E : env) (P : paramset) (T : nat -> bytes) (V : nat -> view) (pt : bytes) (ch : nat) : state :=
  let R := numRounds P in
  mkState (args 0 [0; ch]) (fun _ => 0%N)
    (args [] [places 0 2; places 2 2; places 4 2; places 6 2; [(8, 0)]; [(9, 0)];
              places 10 (R + 1); places (10 + (R + 1)) R; places (10 + (R + 1 + R)) R])
    (ver_memory E P T V pt) (10 + (R + 1 + R + R)) 0.

Lemma ver_outside1 P V1 b k : b < 4 \/ b = 5 \/ b = 8 \/ 9 < b ->
  outside (ver_writes P V1 (9, 0) (4, 0) (fun i => (6 + i, 0))) (b, 0) k.
Proof.
  intros H p l Hp. unfold ver_writes in Hp. cbn [In Nat.add] in Hp.
  destruct Hp as [Hp|[Hp|[Hp|[Hp|[]]]]]; injection Hp as <- <-; apply blocks_disj; lia.
Qed.

Lemma ver_start_reads E P T V pt ch b : bytes_ok (ver_memory E P T V pt b) -> b < 10 + (numRounds P + 1 + numRounds P + numRounds P) -> b < 4 \/ b = 5 \/ b = 8 \/ 9 < b ->
  reads (ver_start E P T V pt ch) (ver_writes P (V 0) (9, 0) (4, 0) (fun i => (6 + i, 0))) (b, 0) (ver_memory E P T V pt b).
Proof.
  intros B H1 H2. split; [apply pts_block; [exact H1|reflexivity]|]. split; [exact B|]. apply ver_outside1, H2.
Qed.

Lemma ver_start_call E P T V pt ch : constants_ok E P -> bytes_ok pt -> length pt = 4 * stateSizeWords P ->
  (forall j, j < 2 -> bytes_ok (T j) /\ 3 * numSboxes P * numRounds P <= 8 * length (T j)) ->
  (forall j, j < 2 -> stateSizeBits P <= 8 * length (v_inputShare (V j)) /\ bytes_ok (v_inputShare (V j)) /\
     3 * numSboxes P * numRounds P <= 8 * length (v_communicatedBits (V j)) /\ bytes_ok (v_communicatedBits (V j)) /\
     length (v_outputShare (V j)) = stateSizeBytes P /\ bytes_ok (v_outputShare (V j))) ->
  ver_call E P (ver_start E P T V pt ch) T V pt ch (9, 0) (4, 0) (fun i => (6 + i, 0)).
Proof.
  intros HC Bp Lp HT HV. pose proof (tables_bytes E P HC) as HB.
  assert (Tb : forall i, i < numRounds P + 1 + numRounds P + numRounds P ->
    reads (ver_start E P T V pt ch) (ver_writes P (V 0) (9, 0) (4, 0) (fun i => (6 + i, 0))) (10 + i, 0) (tables E P i)).
  { intros i Hi. replace (tables E P i) with (ver_memory E P T V pt (10 + i)) by (change (ver_memory E P T V pt (10 + i)) with (tables E P (10 + i - 10)); f_equal; lia).
    apply ver_start_reads; [|lia|lia]. change (ver_memory E P T V pt (10 + i)) with (tables E P (10 + i - 10)). apply HB. }
  split.
  - reflexivity.
  - reflexivity.
  - exists (fun i => (i, 0)). split; [reflexivity|]. intros j Hj. split; [|apply HT, Hj].
    replace (T j) with (ver_memory E P T V pt j) by (destruct (lt2_cases j Hj) as [->| ->]; reflexivity).
    apply ver_start_reads; [|lia|lia]. destruct (lt2_cases j Hj) as [->| ->]; apply HT; lia.
  - exists (fun i => (2 + i, 0)). split; [reflexivity|]. intros j Hj. split; [|split; [apply blocks_aligned|apply HV, Hj]].
    replace (v_inputShare (V j)) with (ver_memory E P T V pt (2 + j)) by (destruct (lt2_cases j Hj) as [->| ->]; reflexivity).
    apply ver_start_reads; [|lia|lia]. destruct (lt2_cases j Hj) as [->| ->]; apply HV; lia.
  - exists (5, 0). split; [reflexivity|]. destruct (HV 0 ltac:(lia)) as (_ & _ & L0 & B0 & _), (HV 1 ltac:(lia)) as (_ & _ & L1 & B1 & _).
    split; [split; [apply pts_block; [cbn [ver_start nx]; lia|reflexivity]|exact B0]|]. split; [exact L0|]. split; [|exact L1].
    apply (ver_start_reads E P T V pt ch 5); [exact B1|lia|lia].
  - split; [reflexivity|]. intros j Hj. split; [|apply HV, Hj]. split; [|apply HV, Hj].
    apply pts_block; [cbn [ver_start nx]; lia|destruct (lt2_cases j Hj) as [->| ->]; reflexivity].
  - exists (8, 0). split; [reflexivity|]. split; [|split; [apply blocks_aligned|exact Lp]].
    apply (ver_start_reads E P T V pt ch 8); [exact Bp|lia|lia].
  - split; [reflexivity|]. split; [apply blocks_aligned|]. exists (zeros (16 * stateSizeWords P)). split; [|apply length_zeros].
    apply pts_block; [cbn [ver_start nx]; lia|reflexivity].
  - intros i j p k q l Hi Hj Hne.
    destruct i as [|[|[|[|i]]]]; cbn [ver_writes nth_error Nat.add] in Hi; [..|destruct i; discriminate Hi];
    (destruct j as [|[|[|[|j]]]]; cbn [ver_writes nth_error Nat.add] in Hj; [..|destruct j; discriminate Hj]);
    injection Hi as <- <-; injection Hj as <- <-; try (exfalso; apply Hne; reflexivity); apply blocks_disj; lia.
  - intros i Hi. exists (10 + i, 0). split; [apply nth_places, Hi|]. split; [|apply blocks_aligned].
    replace (KMatrix E P i) with (tables E P i) by (unfold tables; rewrite (proj2 (Nat.ltb_lt i _)) by lia; reflexivity). apply Tb. lia.
  - intros i Hi. exists (10 + (numRounds P + 1) + i, 0). split; [apply nth_places, Hi|]. split; [|apply blocks_aligned].
    replace (10 + (numRounds P + 1) + i) with (10 + (numRounds P + 1 + i)) by lia.
    replace (LMatrix E P i) with (tables E P (numRounds P + 1 + i)); [apply Tb; lia|]. unfold tables.
    rewrite (proj2 (Nat.ltb_ge (numRounds P + 1 + i) _)), (proj2 (Nat.ltb_lt (numRounds P + 1 + i) _)) by lia. f_equal. lia.
  - intros i Hi. exists (10 + (numRounds P + 1 + numRounds P) + i, 0). split; [apply nth_places, Hi|]. split; [|apply blocks_aligned].
    set (R := numRounds P) in *. replace (10 + (R + 1 + R) + i) with (10 + (R + 1 + R + i)) by lia.
    replace (RConstant E P i) with (tables E P (R + 1 + R + i)); [apply Tb; lia|]. unfold tables. fold R.
    rewrite (proj2 (Nat.ltb_ge (R + 1 + R + i) (R + 1))), (proj2 (Nat.ltb_ge (R + 1 + R + i) (R + 1 + R))), (proj2 (Nat.ltb_lt (R + 1 + R + i) _)) by lia. f_equal. lia.
Qed.

(** Such a memory can hold what a run of the signer left. *)
Lemma replay_case U E P st T V pt e qs qc qo : locals_ok U -> wfP P -> env_bytes_ok E -> constants_ok E P -> e < 3 ->
  mpc_call E P st T V pt qs qc qo ->
  exists st' t V2, run U (c_mpc_LowMC P 0 1 2 3 (PV 4 (IC 0)) (PV 5 (IC 0)) 6 7 8 0) st = Some (st', t) /\
    let T2 j := T ((e + j) mod 3) in
    ver_call E P (ver_start E P T2 V2 pt e) T2 V2 pt e (9, 0) (4, 0) (fun i => (6 + i, 0)) /\
    (forall j, j < 2 -> v_inputShare (V2 j) = v_inputShare (V ((e + j) mod 3))) /\
    pts (nx st) (mm st') (qc ((e + 1) mod 3)) (v_communicatedBits (V2 1)) /\ length (v_communicatedBits (V2 1)) = length (v_communicatedBits (V ((e + 1) mod 3))).
Proof.
  intros HU HP HE HC He HM. destruct (mpc_LowMC_code U E P st T V pt qs qc qo HU HP HE HC HM) as (st' & t & V' & R1 & M1 & Q1 & _).
  assert (Hx : forall j, (e + j) mod 3 < 3) by (intros j; apply Nat.mod_upper_bound; lia).
  exists st', t, (fun j => mkView (v_inputShare (V ((e + j) mod 3))) (if j =? 0 then v_communicatedBits (V ((e + j) mod 3)) else v_communicatedBits (tget V' ((e + j) mod 3))) (zeros (stateSizeBytes P))).
  split; [exact R1|]. cbn [v_inputShare v_communicatedBits Nat.eqb].
  destruct HM as [_ (qt & _ & HT) (qi & _ & HI) [_ Hc] [_ Ho] (qp & _ & (_ & Bp & _) & _ & Lp) _ _ _ _ _].
  assert (Tj : forall j, j < 3 -> tget (T 0, T 1, T 2) j = T j) by (intros j Hj; destruct (lt3 j Hj) as [-> | [-> | ->]]; reflexivity).
  assert (Vj : forall j, j < 3 -> tget (V 0, V 1, V 2) j = V j) by (intros j Hj; destruct (lt3 j Hj) as [-> | [-> | ->]]; reflexivity).
  assert (HV : forall j, j < 3 -> stateSizeBits P <= 8 * length (v_inputShare (V j)) /\ bytes_ok (v_inputShare (V j)) /\
     3 * numSboxes P * numRounds P <= 8 * length (v_communicatedBits (V j)) /\ bytes_ok (v_communicatedBits (V j)) /\
     length (v_outputShare (V j)) = stateSizeBytes P /\ bytes_ok (v_outputShare (V j))).
  { intros j Hj. destruct (HI j Hj) as ((_ & Bi & _) & _ & Li). destruct (Hc j Hj) as [[_ Bc] Lc]. destruct (Ho j Hj) as [[_ Bo] Lo]. auto 10. }
  pose proof (mpc_LowMC_spec E P HP HE HC (T 0, T 1, T 2) (V 0, V 1, V 2) pt (24 * stateSizeWords P) (le_n _) ltac:(lia) Bp
    ltac:(intros j Hj; rewrite Tj by exact Hj; apply HT, Hj) ltac:(intros j Hj; rewrite Vj by exact Hj; apply HV, Hj)) as H.
  rewrite M1 in H. cbn [ok] in H. cbv zeta in H.
  split; [|split; [reflexivity|split; [apply Q1, Hx|]]].
  - apply ver_start_call; [exact HC|exact Bp|exact Lp| |].
    + intros j Hj. destruct (HT _ (Hx j)) as ((_ & B & _) & L). auto.
    + intros j Hj. cbn [v_inputShare v_communicatedBits v_outputShare]. destruct (HV _ (Hx j)) as (A1 & A2 & A3 & A4 & _).
      split; [exact A1|]. split; [exact A2|]. rewrite length_zeros. split; [|split; [|split; [reflexivity|apply bytes_ok_zeros]]].
      * destruct (j =? 0); [exact A3|]. destruct (H _ (Hx j)) as (_ & L & _). rewrite L, (Vj _ (Hx j)). exact A3.
      * destruct (j =? 0); [exact A4|]. apply (H _ (Hx j)).
  - destruct (H _ (Hx 1)) as (_ & L & _). rewrite (Vj _ (Hx 1)) in L. exact L.
Qed.

Lemma ver_same_public E P T V pt T' V' pt' ch : (forall j, length (T j) = length (T' j)) ->
  (forall j, length (v_inputShare (V j)) = length (v_inputShare (V' j)) /\ length (v_communicatedBits (V j)) = length (v_communicatedBits (V' j)) /\
     length (v_outputShare (V j)) = length (v_outputShare (V' j))) -> length pt = length pt' ->
  same_public (ver_start E P T V pt ch) (ver_start E P T' V' pt' ch).
Proof.
  intros H1 H2 H3. unfold same_public, ver_start. csimpl. repeat (split; [reflexivity|]).
  intros k. do 10 (destruct k as [|k]; [cbn [ver_memory]; first [apply H1|apply H2|exact H3|reflexivity]|]). reflexivity.
Qed.
