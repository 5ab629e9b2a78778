(** A memory in which the signer's ZKB++ computation can be called. *)

From Coq Require Import List NArith Arith Bool Lia ZifyBool ZifyNat ZifyN.
From Verif Require Import Base Params Env Spec LowMC Picnic1 MiniC CodeLowMC CodeZkb CodeSpec CodeZkbSpec.
From Verif Require Import BaseFacts ParamFacts LowMCFacts MiniCFacts CodeRules CodeWitness CodeZkbRun Witness.
Import ListNotations.

(** The tables of constants in blocks [0 ..] of a memory. *)
Definition tables (E : env) (P : paramset) (i : nat) : bytes :=
  let R := numRounds P in
  if i <? R + 1 then KMatrix E P i else if i <? R + 1 + R then LMatrix E P (i - (R + 1)) else
  if i <? R + 1 + R + R then RConstant E P (i - (R + 1 + R)) else [].

(** Every object in a block of its own. *)
Definition mpc_memory (E : env) (P : paramset) (T : nat -> bytes) (V : nat -> view) (pt : bytes) : memory := fun b =>
  match b with
  | 0 | 1 | 2 => T b
  | 3 | 4 | 5 => v_inputShare (V (b - 3))
  | 6 | 7 | 8 => v_communicatedBits (V (b - 6))
  | 9 | 10 | 11 => v_outputShare (V (b - 9))
  | 12 => pt
  | 13 => zeros (24 * stateSizeWords P)
  | _ => tables E P (b - 14)
  end.
Definition mpc_start (E : env) (P : paramset) (T : nat -> bytes) (V : nat -> view) (pt : bytes) : state :=
  let R := numRounds P in
  mkState (fun _ => 0) (fun _ => 0%N)
    (args [] [places 0 3; places 3 3; places 6 3; places 9 3; [(12, 0)]; [(13, 0)];
              places 14 (R + 1); places (14 + (R + 1)) R; places (14 + (R + 1 + R)) R])
    (mpc_memory E P T V pt) (14 + (R + 1 + R + R)) 0.

Lemma blocks_disj b b' k l : b <> b' -> disj (b, 0) k (b', 0) l.
Proof. intros H. left. cbn [fst]. lia. Qed.
Lemma blocks_aligned b : aligned (b, 0).
Proof. reflexivity. Qed.

Lemma tables_bytes E P : constants_ok E P -> forall i, bytes_ok (tables E P i).
Proof.
  intros (CK & CL & CC) i. unfold tables. set (R := numRounds P) in *.
  destruct (Nat.ltb_spec i (R + 1)); [apply CK; lia|]. destruct (Nat.ltb_spec i (R + 1 + R)); [apply CL; lia|].
  destruct (Nat.ltb_spec i (R + 1 + R + R)); [apply CC; lia|constructor].
Qed.

Lemma mpc_outside P V b k : 13 < b \/ b < 6 \/ b = 12 ->
  outside (mpc_writes P V (13, 0) (fun i => (6 + i, 0)) (fun i => (9 + i, 0))) (b, 0) k.
Proof.
  intros H p l Hp. unfold mpc_writes in Hp. cbn [In Nat.add] in Hp.
  destruct Hp as [Hp|[Hp|[Hp|[Hp|[Hp|[Hp|[Hp|[]]]]]]]]; injection Hp as <- <-; apply blocks_disj; lia.
Qed.

Lemma mpc_start_reads E P T V pt b : bytes_ok (mpc_memory E P T V pt b) -> b < 14 + (numRounds P + 1 + numRounds P + numRounds P) -> 13 < b \/ b < 6 \/ b = 12 ->
  reads (mpc_start E P T V pt) (mpc_writes P V (13, 0) (fun i => (6 + i, 0)) (fun i => (9 + i, 0))) (b, 0) (mpc_memory E P T V pt b).
Proof.
  intros B H1 H2. split; [apply pts_block; [exact H1|reflexivity]|]. split; [exact B|]. apply mpc_outside, H2.
Qed.

Lemma mpc_start_call E P T V pt : constants_ok E P -> bytes_ok pt -> length pt = 4 * stateSizeWords P ->
  (forall j, j < 3 -> bytes_ok (T j) /\ 3 * numSboxes P * numRounds P <= 8 * length (T j)) ->
  (forall j, j < 3 -> stateSizeBits P <= 8 * length (v_inputShare (V j)) /\ bytes_ok (v_inputShare (V j)) /\
     3 * numSboxes P * numRounds P <= 8 * length (v_communicatedBits (V j)) /\ bytes_ok (v_communicatedBits (V j)) /\
     length (v_outputShare (V j)) = stateSizeBytes P /\ bytes_ok (v_outputShare (V j))) ->
  mpc_call E P (mpc_start E P T V pt) T V pt (13, 0) (fun i => (6 + i, 0)) (fun i => (9 + i, 0)).
Proof.
  intros HC Bp Lp HT HV. pose proof (tables_bytes E P HC) as HB.
  assert (Tb : forall i, i < numRounds P + 1 + numRounds P + numRounds P ->
    reads (mpc_start E P T V pt) (mpc_writes P V (13, 0) (fun i => (6 + i, 0)) (fun i => (9 + i, 0))) (14 + i, 0) (tables E P i)).
  { intros i Hi. replace (tables E P i) with (mpc_memory E P T V pt (14 + i)) by (change (mpc_memory E P T V pt (14 + i)) with (tables E P (14 + i - 14)); f_equal; lia).
    apply mpc_start_reads; [|lia|lia]. change (mpc_memory E P T V pt (14 + i)) with (tables E P (14 + i - 14)). apply HB. }
  split.
  - reflexivity.
  - exists (fun i => (i, 0)). split; [reflexivity|]. intros j Hj. split; [|apply HT, Hj].
    replace (T j) with (mpc_memory E P T V pt j) by (destruct (lt3_cases j Hj) as [->|[->| ->]]; reflexivity).
    apply mpc_start_reads; [|lia|lia]. destruct (lt3_cases j Hj) as [->|[->| ->]]; apply HT; lia.
  - exists (fun i => (3 + i, 0)). split; [reflexivity|]. intros j Hj. split; [|split; [apply blocks_aligned|apply HV, Hj]].
    replace (v_inputShare (V j)) with (mpc_memory E P T V pt (3 + j)) by (destruct (lt3_cases j Hj) as [->|[->| ->]]; reflexivity).
    apply mpc_start_reads; [|lia|lia]. destruct (lt3_cases j Hj) as [->|[->| ->]]; apply HV; lia.
  - split; [reflexivity|]. intros j Hj. split; [|apply HV, Hj]. split; [|apply HV, Hj].
    apply pts_block; [cbn [mpc_start nx]; lia|destruct (lt3_cases j Hj) as [->|[->| ->]]; reflexivity].
  - split; [reflexivity|]. intros j Hj. split; [|apply HV, Hj]. split; [|apply HV, Hj].
    apply pts_block; [cbn [mpc_start nx]; lia|destruct (lt3_cases j Hj) as [->|[->| ->]]; reflexivity].
  - exists (12, 0). split; [reflexivity|]. split; [|split; [apply blocks_aligned|exact Lp]].
    apply (mpc_start_reads E P T V pt 12); [exact Bp|lia|lia].
  - split; [reflexivity|]. split; [apply blocks_aligned|]. exists (zeros (24 * stateSizeWords P)). split; [|apply length_zeros].
    apply pts_block; [cbn [mpc_start nx]; lia|reflexivity].
  - intros i j p k q l Hi Hj Hne.
    destruct i as [|[|[|[|[|[|[|i]]]]]]]; cbn [mpc_writes nth_error Nat.add] in Hi; [..|destruct i; discriminate Hi];
    (destruct j as [|[|[|[|[|[|[|j]]]]]]]; cbn [mpc_writes nth_error Nat.add] in Hj; [..|destruct j; discriminate Hj]);
    injection Hi as <- <-; injection Hj as <- <-; try (exfalso; apply Hne; reflexivity); apply blocks_disj; lia.
  - intros i Hi. exists (14 + i, 0). split; [apply nth_places, Hi|]. split; [|apply blocks_aligned].
    replace (KMatrix E P i) with (tables E P i) by (unfold tables; rewrite (proj2 (Nat.ltb_lt i _)) by lia; reflexivity). apply Tb. lia.
  - intros i Hi. exists (14 + (numRounds P + 1) + i, 0). split; [apply nth_places, Hi|]. split; [|apply blocks_aligned].
    replace (14 + (numRounds P + 1) + i) with (14 + (numRounds P + 1 + i)) by lia.
    replace (LMatrix E P i) with (tables E P (numRounds P + 1 + i)); [apply Tb; lia|]. unfold tables.
    rewrite (proj2 (Nat.ltb_ge (numRounds P + 1 + i) _)), (proj2 (Nat.ltb_lt (numRounds P + 1 + i) _)) by lia. f_equal. lia.
  - intros i Hi. exists (14 + (numRounds P + 1 + numRounds P) + i, 0). split; [apply nth_places, Hi|]. split; [|apply blocks_aligned].
    set (R := numRounds P) in *. replace (14 + (R + 1 + R) + i) with (14 + (R + 1 + R + i)) by lia.
    replace (RConstant E P i) with (tables E P (R + 1 + R + i)); [apply Tb; lia|]. unfold tables. fold R.
    rewrite (proj2 (Nat.ltb_ge (R + 1 + R + i) (R + 1))), (proj2 (Nat.ltb_ge (R + 1 + R + i) (R + 1 + R))), (proj2 (Nat.ltb_lt (R + 1 + R + i) _)) by lia. f_equal. lia.
Qed.

Lemma mpc_same_public E P T V pt T' V' pt' : (forall j, length (T j) = length (T' j)) ->
  (forall j, length (v_inputShare (V j)) = length (v_inputShare (V' j)) /\ length (v_communicatedBits (V j)) = length (v_communicatedBits (V' j)) /\
     length (v_outputShare (V j)) = length (v_outputShare (V' j))) -> length pt = length pt' ->
  same_public (mpc_start E P T V pt) (mpc_start E P T' V' pt').
Proof.
  intros H1 H2 H3. unfold same_public, mpc_start. csimpl. repeat (split; [reflexivity|]).
  intros k. do 14 (destruct k as [|k]; [cbn [mpc_memory]; first [apply H1|apply H2|exact H3|reflexivity]|]). reflexivity.
Qed.
