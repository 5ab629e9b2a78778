(** A memory in which ZKB++ signing can run: every object in a block of its own. *)

From Coq Require Import List NArith Arith Bool Lia ZifyBool ZifyNat ZifyN.
From Verif Require Import Base Params Env Spec LowMC Picnic1 MiniC CodeLowMC CodeZkb CodeKeccak CodeSpec HashSpec CodeKeccakSpec CodeZkbSpec CodeSign CodeSignSpec CodeSignAllSpec ApiSpec.
From Verif Require Import BaseFacts ParamFacts LowMCFacts MiniCFacts CodeRules CodeWitness CodeZkbRun CodeZkbWitness ZkbChal CodeSignThm CodeSignWitness ApiFacts Witness.
Import ListNotations.

Section W.
Variables (E : env) (P : paramset) (sk pub pt msg : bytes).
Let n := signer_count P.
Let I := inner P.
Let R := numRounds P.
Definition signer_memory : memory := fun b =>
  if b <? n then zeros (signer_size P b)
  else match b - n with
       | 0 => pt | 1 => round_constant_bytes | 2 => msg | 3 => sk | 4 => pub
       | _ => tables E P (b - n - 5)
       end.
Definition signer_start : state :=
  mkState (fun _ => 0) (fun _ => 0%N)
    (args [] [places 1 3; rows_at P 0; rows_at P 3; rows_at P 6; [(n, 0)]; [(0, 0)];
              places (n + 5) (R + 1); places (n + 5 + (R + 1)) R; places (n + 5 + (R + 1 + R)) R; [(n + 1, 0)];
              map (fun i => (I, i * seedSizeBytes P)) (seq 0 (3 * numMPCRounds P)); [(I + 1, 0)]; [(n + 3, 0)]; [(n + 4, 0)];
              rows_at P 9; rows_at P 12; []; []; []; []; [(I, 0)]; []; [(n + 2, 0)]; [(I + 2, 0)]; places (I + 3) (proof_bufs P * numMPCRounds P)])
    signer_memory (n + 5 + (R + 1 + R + R)) 0.

Lemma signer_in b k q : In (q, k) (signer_writes P (fun i => (i, 0))) -> n <= b -> disj q k (b, 0) 0 /\ fst q < n.
Proof.
  intros H Hb. unfold signer_writes in H. apply in_map_iff in H. destruct H as (i & Hi & H). apply in_seq in H. injection Hi as <- <-. fold n in H. split; [left; cbn [fst]; lia|cbn [fst]; lia].
Qed.
Lemma signer_reads b l : signer_memory b = l -> bytes_ok l -> n <= b < n + 5 + (R + 1 + R + R) -> reads signer_start (signer_writes P (fun i => (i, 0))) (b, 0) l.
Proof.
  intros Hm Hb Hn. split; [apply pts_block; [cbn [signer_start nx]; lia|exact Hm]|]. split; [exact Hb|]. intros p k Hp. destruct (signer_in b k p Hp ltac:(lia)) as [_ X]. left. cbn [fst]. lia.
Qed.
Lemma mem_lo b : b < n -> signer_memory b = zeros (signer_size P b).
Proof. intros H. unfold signer_memory. rewrite (proj2 (Nat.ltb_lt b n) H). reflexivity. Qed.
Lemma mem_hi i : signer_memory (n + i) = match i with 0 => pt | 1 => round_constant_bytes | 2 => msg | 3 => sk | 4 => pub | _ => tables E P (i - 5) end.
Proof. unfold signer_memory. rewrite (proj2 (Nat.ltb_ge (n + i) n)) by lia. replace (n + i - n) with i by lia. reflexivity. Qed.
Lemma mem_table i : signer_memory (n + 5 + i) = tables E P i.
Proof. rewrite <- Nat.add_assoc, mem_hi. cbn [Nat.add]. f_equal. lia. Qed.

Lemma signer_start_call : constants_ok E P -> bytes_ok pt -> length pt = 4 * stateSizeWords P -> bytes_ok sk -> stateSizeBytes P <= length sk -> 4 * stateSizeWords P <= length sk -> short sk ->
  bytes_ok pub -> stateSizeBytes P <= length pub -> short pub -> bytes_ok msg -> short msg ->
  signer_call P E signer_start (fun i => (i, 0)) sk pub pt msg.
Proof.
  intros HC Bp Lp Bk Lk Lk4 Sk Bb Lb Sb Bm Sm. pose proof (tables_bytes E P HC) as HB.
  assert (Pr : 12 <= per_round P) by (unfold per_round; destruct (is_UR _); lia). assert (Pb : 5 <= proof_bufs P) by (unfold proof_bufs; destruct (is_UR _); lia).
  assert (In' : I + 3 <= n) by (unfold n, signer_count; fold I; lia).
  assert (Hn : forall k j, k < numMPCRounds P -> j < per_round P -> round_at P k + j < I) by (intros k j Hk Hj; unfold I, inner, round_at; nia).
  assert (Tb : forall i, i < R + 1 + R + R -> reads signer_start (signer_writes P (fun i => (i, 0))) (n + 5 + i, 0) (tables E P i)).
  { intros i Hi. apply signer_reads; [apply mem_table|apply HB|lia]. }
  split.
  - intros i j p k q l Hi Hj Hne. unfold signer_writes in Hi, Hj. rewrite nth_error_map in Hi, Hj.
    destruct (nth_error (seq 0 (signer_count P)) i) eqn:E1; [|discriminate]. destruct (nth_error (seq 0 (signer_count P)) j) eqn:E2; [|discriminate].
    injection Hi as <- <-. injection Hj as <- <-. apply blocks_disj. intros ->. apply Hne. apply (NoDup_nth_error (seq 0 (signer_count P))); [apply seq_NoDup|apply nth_error_Some; congruence|congruence].
  - intros i Hi. exists (zeros (signer_size P i)). split; [|apply length_zeros]. split; [apply pts_block; [cbn [signer_start nx]; fold n in Hi; lia|apply mem_lo; exact Hi]|apply bytes_ok_zeros].
  - intros k j Hk Hj. assert (X : round_at P k + j < I) by (apply Hn; [exact Hk|lia]). split; [|apply bytes_ok_zeros]. apply pts_block; [cbn [signer_start nx]; lia|].
    cbn [signer_start mm]. rewrite mem_lo by lia. f_equal. unfold signer_size. fold I. rewrite (proj2 (Nat.ltb_lt _ I) X). unfold sign_size, round_at. rewrite (proj2 (Nat.eqb_neq _ 0)), (proj2 (Nat.ltb_ge _ 4)) by lia.
    replace (4 + per_round P * k + j - 4) with (j + k * per_round P) by lia. rewrite Nat.mod_add, Nat.mod_small by lia. reflexivity.
  - split; [apply blocks_aligned|]. intros. apply blocks_aligned.
  - reflexivity.
  - intros k j Hk Hj. cbn [signer_start pv]. unfold args. cbn [nth]. rewrite !nth_rows by assumption. cbn [Nat.add]. auto.
  - exists (n, 0). split; [reflexivity|]. split; [|split; [apply blocks_aligned|exact Lp]]. apply signer_reads; [|exact Bp|lia]. rewrite <- (Nat.add_0_r n) at 1. apply mem_hi.
  - reflexivity.
  - intros i Hi. exists (n + 5 + i, 0). split; [apply nth_places, Hi|]. split; [|apply blocks_aligned].
    replace (KMatrix E P i) with (tables E P i) by (unfold tables; rewrite (proj2 (Nat.ltb_lt i _)) by lia; reflexivity). apply Tb. fold R in Hi. lia.
  - intros i Hi. exists (n + 5 + (R + 1) + i, 0). split; [apply nth_places, Hi|]. split; [|apply blocks_aligned]. fold R in Hi.
    replace (n + 5 + (R + 1) + i) with (n + 5 + (R + 1 + i)) by lia. replace (LMatrix E P i) with (tables E P (R + 1 + i)); [apply Tb; lia|]. unfold tables. fold R.
    rewrite (proj2 (Nat.ltb_ge (R + 1 + i) _)), (proj2 (Nat.ltb_lt (R + 1 + i) _)) by lia. f_equal. lia.
  - intros i Hi. exists (n + 5 + (R + 1 + R) + i, 0). split; [apply nth_places, Hi|]. split; [|apply blocks_aligned]. fold R in Hi.
    replace (n + 5 + (R + 1 + R) + i) with (n + 5 + (R + 1 + R + i)) by lia. replace (RConstant E P i) with (tables E P (R + 1 + R + i)); [apply Tb; lia|]. unfold tables. fold R.
    rewrite (proj2 (Nat.ltb_ge (R + 1 + R + i) (R + 1))), (proj2 (Nat.ltb_ge (R + 1 + R + i) (R + 1 + R))), (proj2 (Nat.ltb_lt (R + 1 + R + i) _)) by lia. f_equal. lia.
  - exists (n + 1, 0). split; [reflexivity|]. split; [|reflexivity]. apply signer_reads; [apply mem_hi|repeat constructor|lia].
  - split; [reflexivity|]. intros k j Hk Hj. cbn [signer_start pv fst snd]. unfold args. cbn [nth]. rewrite nth_map_seq by lia. reflexivity.
  - reflexivity.
  - reflexivity.
  - exists (n + 3, 0). split; [reflexivity|]. split; [apply signer_reads; [apply mem_hi|exact Bk|lia]|]. split; [apply blocks_aligned|auto].
  - exists (n + 4, 0). split; [reflexivity|]. split; [apply signer_reads; [apply mem_hi|exact Bb|lia]|auto].
  - exists (n + 2, 0). split; [reflexivity|]. split; [apply signer_reads; [apply mem_hi|exact Bm|lia]|exact Sm].
  - intros k j Hk Hj. cbn [signer_start pv]. unfold args. cbn [nth]. rewrite !nth_rows by assumption. auto.
  - intros k e Hk He. cbn [signer_start pv]. unfold args. cbn [nth]. rewrite (nth_places (I + 3)) by nia. unfold proof_at. fold I. rewrite !Nat.add_assoc. reflexivity.
Qed.
End W.

(** Inputs made of equal bytes, any message. *)
Definition demo_signer (P : paramset) (x : N) (pub msg : bytes) : state :=
  signer_start toy_env P (repeat x (4 * stateSizeWords P)) pub (repeat 7%N (4 * stateSizeWords P)) msg.
Lemma demo_signer_call p P x pub msg : get_param_set p = Some P -> (x < 200)%N -> bytes_ok pub -> length pub = stateSizeBytes P -> bytes_ok msg -> short msg ->
  signer_call P toy_env (demo_signer P x pub msg) (fun i => (i, 0)) (repeat x (4 * stateSizeWords P)) pub (repeat 7%N (4 * stateSizeWords P)) msg.
Proof.
  intros HP Hx Bb Lb Bm Sm. pose proof (get_param_set_wfP p P HP) as HW. destruct (wfP_block P HW) as [W1 _]. pose proof (wf_W3 P HW) as W3.
  apply signer_start_call; auto; try (apply repeat_ok; lia); rewrite ?repeat_length; auto; try lia; try (unfold short; rewrite ?repeat_length; lia). apply (toy_constants_all p P HP).
Qed.
