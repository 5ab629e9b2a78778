(** A memory in which a round of ZKB++ verification can run: every object in a block of its own. *)

From Coq Require Import List NArith Arith Bool Lia ZifyBool ZifyNat ZifyN.
From Verif Require Import Base Params Env Spec LowMC Picnic1 MiniC CodeLowMC CodeZkb CodeKeccak CodeSpec CodeKeccakSpec CodeZkbSpec CodeVerRound CodeVerRoundSpec ApiSpec.
From Verif Require Import BaseFacts ParamFacts LowMCFacts MiniCFacts CodeRules CodeWitness CodeZkbRun CodeZkbWitness CodeSignThm CodeSignWitness Witness.
Import ListNotations.

Section W.
Variables (E : env) (P : paramset) (ch : nat) (pr : proof) (salt pub pt : bytes).
Let n := ver_count P.
Let R := numRounds P.
Definition given_object (i : nat) : bytes :=
  match i with
  | 0 => pt | 1 => round_constant_bytes | 2 => p_seed1 pr | 3 => p_seed2 pr | 4 => salt | 5 => p_inputShare pr | 6 => pub
  | 7 => p_communicatedBits pr | 8 => p_view3Commitment pr | 9 => p_view3UnruhG pr
  | _ => tables E P (i - 10)
  end.
Definition round_memory : memory := fun b => if b <? n then zeros (ver_size P b) else given_object (b - n).
Definition round_start : state :=
  mkState (fun x => if x =? 1 then ch else 0) (fun _ => 0%N)
    (args [] [places 1 2; places 3 2; places 5 2; places 7 2; [(n + 0, 0)]; [(0, 0)];
              places (n + 10) (R + 1); places (n + 10 + (R + 1)) R; places (n + 10 + (R + 1 + R)) R; [(n + 1, 0)];
              [(n + 2, 0); (n + 3, 0)]; [(n + 4, 0)]; [(n + 5, 0)]; [(n + 6, 0)]; places 9 3; places 13 3; [(n + 7, 0)]; [(n + 8, 0)]; [(n + 9, 0)]; [(12, 0)]])
    round_memory (n + 10 + (R + 1 + R + R)) 0.

Lemma rmem_lo b : b < n -> round_memory b = zeros (ver_size P b).
Proof. intros H. unfold round_memory. rewrite (proj2 (Nat.ltb_lt b n) H). reflexivity. Qed.
Lemma rmem_hi i : round_memory (n + i) = given_object i.
Proof. unfold round_memory. rewrite (proj2 (Nat.ltb_ge (n + i) n)) by lia. f_equal. lia. Qed.
Lemma round_reads i l : given_object i = l -> bytes_ok l -> i < 10 + (R + 1 + R + R) -> reads round_start (round_writes P (fun i => (i, 0))) (n + i, 0) l.
Proof.
  intros Hm Hb Hn. split; [apply pts_block; [cbn [round_start nx]; lia|cbn [round_start mm]; rewrite rmem_hi; exact Hm]|]. split; [exact Hb|]. intros p k Hp.
  unfold round_writes in Hp. apply in_map_iff in Hp. destruct Hp as (j & Hj & Hp). apply in_seq in Hp. injection Hj as <- <-. fold n in Hp. left. cbn [fst]. lia.
Qed.

Lemma round_start_call : ch < 3 -> constants_ok E P -> bytes_ok pt -> length pt = 4 * stateSizeWords P -> bytes_ok salt -> length salt = saltSizeBytes P ->
  bytes_ok pub -> stateSizeBytes P <= length pub ->
  (forall e, e < 2 -> bytes_ok (proof_seed pr e) /\ length (proof_seed pr e) = seedSizeBytes P) ->
  bytes_ok (p_inputShare pr) -> length (p_inputShare pr) = stateSizeBytes P -> bytes_ok (p_communicatedBits pr) -> length (p_communicatedBits pr) = andSizeBytes P ->
  bytes_ok (p_view3Commitment pr) -> length (p_view3Commitment pr) = digestSizeBytes P -> bytes_ok (p_view3UnruhG pr) -> length (p_view3UnruhG pr) = UnruhGWithInputBytes P ->
  round_call P E round_start (fun i => (i, 0)) ch pr salt pub pt.
Proof.
  intros Hch HC Bp Lp Bs Ls Bb Lb Hsd Bi Li Bc Lc B3 L3 Bg Lg. pose proof (tables_bytes E P HC) as HB.
  assert (Nn : 13 <= n) by (unfold n, ver_count; destruct (is_UR _); lia).
  assert (Tb : forall i, i < R + 1 + R + R -> reads round_start (round_writes P (fun i => (i, 0))) (n + 10 + i, 0) (tables E P i)).
  { intros i Hi. rewrite <- Nat.add_assoc. apply round_reads; [|apply HB|lia]. change (given_object (10 + i)) with (tables E P (10 + i - 10)). f_equal. lia. }
  split.
  - intros i j p k q l Hi Hj Hne. unfold round_writes in Hi, Hj. rewrite nth_error_map in Hi, Hj.
    destruct (nth_error (seq 0 (ver_count P)) i) eqn:E1; [|discriminate]. destruct (nth_error (seq 0 (ver_count P)) j) eqn:E2; [|discriminate].
    injection Hi as <- <-. injection Hj as <- <-. apply blocks_disj. intros ->. apply Hne. apply (NoDup_nth_error (seq 0 (ver_count P))); [apply seq_NoDup|apply nth_error_Some; congruence|congruence].
  - intros i Hi. exists (zeros (ver_size P i)). split; [|apply length_zeros]. split; [apply pts_block; [cbn [round_start nx]; fold n in Hi; lia|apply rmem_lo; exact Hi]|apply bytes_ok_zeros].
  - intros i Hi. split; [|apply bytes_ok_zeros]. apply pts_block; [cbn [round_start nx]; lia|]. apply rmem_lo. lia.
  - repeat split.
  - split; [reflexivity|exact Hch].
  - repeat split.
  - exists (n + 0, 0). split; [reflexivity|]. split; [|split; [apply blocks_aligned|exact Lp]]. apply round_reads; [reflexivity|exact Bp|lia].
  - intros i Hi. exists (n + 10 + i, 0). split; [apply nth_places, Hi|]. split; [|apply blocks_aligned].
    replace (KMatrix E P i) with (tables E P i) by (unfold tables; rewrite (proj2 (Nat.ltb_lt i _)) by lia; reflexivity). apply Tb. fold R in Hi. lia.
  - intros i Hi. exists (n + 10 + (R + 1) + i, 0). split; [apply nth_places, Hi|]. split; [|apply blocks_aligned]. fold R in Hi.
    replace (n + 10 + (R + 1) + i) with (n + 10 + (R + 1 + i)) by lia. replace (LMatrix E P i) with (tables E P (R + 1 + i)); [apply Tb; lia|]. unfold tables. fold R.
    rewrite (proj2 (Nat.ltb_ge (R + 1 + i) _)), (proj2 (Nat.ltb_lt (R + 1 + i) _)) by lia. f_equal. lia.
  - intros i Hi. exists (n + 10 + (R + 1 + R) + i, 0). split; [apply nth_places, Hi|]. split; [|apply blocks_aligned]. fold R in Hi.
    replace (n + 10 + (R + 1 + R) + i) with (n + 10 + (R + 1 + R + i)) by lia. replace (RConstant E P i) with (tables E P (R + 1 + R + i)); [apply Tb; lia|]. unfold tables. fold R.
    rewrite (proj2 (Nat.ltb_ge (R + 1 + R + i) (R + 1))), (proj2 (Nat.ltb_ge (R + 1 + R + i) (R + 1 + R))), (proj2 (Nat.ltb_lt (R + 1 + R + i) _)) by lia. f_equal. lia.
  - exists (n + 1, 0). split; [reflexivity|]. split; [|reflexivity]. apply round_reads; [reflexivity|repeat constructor|lia].
  - exists (fun e => (n + (2 + e), 0)). split; [reflexivity|]. intros e He. destruct (Hsd e He) as [A B]. split; [|exact B].
    apply round_reads; [|exact A|lia]. destruct e as [|[|e]]; [reflexivity|reflexivity|lia].
  - split; [|exact Ls]. exists (n + 4, 0). split; [reflexivity|]. apply round_reads; [reflexivity|exact Bs|lia].
  - split; [|exact Li]. exists (n + 5, 0). split; [reflexivity|]. apply round_reads; [reflexivity|exact Bi|lia].
  - exists (n + 6, 0). split; [reflexivity|]. split; [|split; [apply blocks_aligned|exact Lb]]. apply round_reads; [reflexivity|exact Bb|lia].
  - split; [|exact Lc]. exists (n + 7, 0). split; [reflexivity|]. apply round_reads; [reflexivity|exact Bc|lia].
  - split; [|exact L3]. exists (n + 8, 0). split; [reflexivity|]. apply round_reads; [reflexivity|exact B3|lia].
  - intros _. split; [|exact Lg]. exists (n + 9, 0). split; [reflexivity|]. apply round_reads; [reflexivity|exact Bg|lia].
Qed.
End W.

(** Inputs made of equal bytes. *)
Definition demo_proof (P : paramset) (x : N) : proof :=
  mkProof (repeat x (seedSizeBytes P)) (repeat (x + 1)%N (seedSizeBytes P)) (repeat (x + 2)%N (stateSizeBytes P)) (repeat (x + 3)%N (andSizeBytes P))
    (repeat (x + 4)%N (digestSizeBytes P)) (repeat (x + 5)%N (UnruhGWithInputBytes P)).
Definition demo_round (P : paramset) (ch : nat) (x : N) : state :=
  round_start toy_env P ch (demo_proof P x) (repeat 3%N (saltSizeBytes P)) (repeat 5%N (stateSizeBytes P)) (repeat 7%N (4 * stateSizeWords P)).

Lemma demo_round_call p P ch x : get_param_set p = Some P -> ch < 3 -> (x < 200)%N ->
  round_call P toy_env (demo_round P ch x) (fun i => (i, 0)) ch (demo_proof P x) (repeat 3%N (saltSizeBytes P)) (repeat 5%N (stateSizeBytes P)) (repeat 7%N (4 * stateSizeWords P)).
Proof.
  intros HP Hch Hx. apply round_start_call; auto; try (apply (toy_constants_all p P HP)); try (apply repeat_ok; lia); rewrite ?repeat_length; auto; try (apply repeat_length).
  intros e He. unfold proof_seed. destruct (e =? 0); cbn [demo_proof p_seed1 p_seed2]; (split; [apply repeat_ok; lia|apply repeat_length]).
Qed.
