(** A memory in which the rounds of ZKB++ signing can run: every object in a block of its own. *)

From Coq Require Import List NArith Arith Bool Lia ZifyBool ZifyNat ZifyN.
From Verif Require Import Base Params Env Spec LowMC Picnic1 MiniC CodeLowMC CodeZkb CodeKeccak CodeSpec CodeKeccakSpec CodeZkbSpec CodeSign CodeSignSpec ApiSpec.
From Verif Require Import BaseFacts ParamFacts LowMCFacts MiniCFacts CodeRules CodeWitness CodeZkbRun CodeZkbWitness ZkbChal CodeSignThm Witness.
Import ListNotations.

(** A public key for a secret key and plaintext. *)
Definition cipher (E : env) (P : paramset) (sk pt : bytes) : bytes :=
  pack (stateSizeBytes P) (fun i => if i <? stateSizeBits P then lowmc_enc (lowmc_of E P) (bit sk) (bit pt) i else false).

Section W.
Variables (E : env) (P : paramset) (allSeeds salt sk pub pt : bytes).
Let n := round_at P (numMPCRounds P).
Let R := numRounds P.
Definition sign_memory : memory := fun b =>
  if b <? n then zeros (sign_size P b)
  else match b - n with
       | 0 => pt | 1 => round_constant_bytes | 2 => allSeeds | 3 => salt | 4 => sk | 5 => pub
       | _ => tables E P (b - n - 6)
       end.
(** Entry [j] of round [k], [d] further. *)
Definition rows_at (d : nat) : list ptr := map (fun i => (round_at P (i / 3) + (d + i mod 3), 0)) (seq 0 (3 * numMPCRounds P)).
Definition sign_start : state :=
  mkState (fun _ => 0) (fun _ => 0%N)
    (args [] [places 1 3; rows_at 0; rows_at 3; rows_at 6; [(n, 0)]; [(0, 0)];
              places (n + 6) (R + 1); places (n + 6 + (R + 1)) R; places (n + 6 + (R + 1 + R)) R; [(n + 1, 0)];
              map (fun i => (n + 2, i * seedSizeBytes P)) (seq 0 (3 * numMPCRounds P)); [(n + 3, 0)]; [(n + 4, 0)]; [(n + 5, 0)];
              rows_at 9; rows_at 12])
    sign_memory (n + 6 + (R + 1 + R + R)) 0.

Lemma nth_rows d k j : k < numMPCRounds P -> j < 3 -> nth_error (rows_at d) (3 * k + j) = Some (round_at P k + (d + j), 0).
Proof.
  intros Hk Hj. unfold rows_at. rewrite nth_map_seq by lia. replace ((3 * k + j) / 3) with k by (apply (Nat.div_unique _ 3 k j); lia).
  replace ((3 * k + j) mod 3) with j by (apply (Nat.mod_unique _ 3 k j); lia). reflexivity.
Qed.
Lemma sign_in b k q : In (q, k) (sign_writes P (fun i => (i, 0))) -> n <= b -> disj q k (b, 0) 0 /\ fst q < n.
Proof.
  intros H Hb. unfold sign_writes in H. apply in_map_iff in H. destruct H as (i & Hi & H). apply in_seq in H. injection Hi as <- <-. fold n in H. split; [left; cbn [fst]; lia|cbn [fst]; lia].
Qed.
Lemma sign_reads b l : sign_memory b = l -> bytes_ok l -> n <= b < n + 6 + (R + 1 + R + R) -> reads sign_start (sign_writes P (fun i => (i, 0))) (b, 0) l.
Proof.
  intros Hm Hb Hn. split; [apply pts_block; [cbn [sign_start nx]; lia|exact Hm]|]. split; [exact Hb|]. intros p k Hp. destruct (sign_in b k p Hp ltac:(lia)) as [_ X]. left. cbn [fst]. lia.
Qed.
Lemma mem_lo b : b < n -> sign_memory b = zeros (sign_size P b).
Proof. intros H. unfold sign_memory. rewrite (proj2 (Nat.ltb_lt b n) H). reflexivity. Qed.
Lemma mem_hi i : sign_memory (n + i) = match i with 0 => pt | 1 => round_constant_bytes | 2 => allSeeds | 3 => salt | 4 => sk | 5 => pub | _ => tables E P (i - 6) end.
Proof. unfold sign_memory. rewrite (proj2 (Nat.ltb_ge (n + i) n)) by lia. replace (n + i - n) with i by lia. reflexivity. Qed.
Lemma mem_table i : sign_memory (n + 6 + i) = tables E P i.
Proof. rewrite <- Nat.add_assoc, mem_hi. cbn [Nat.add]. f_equal. lia. Qed.

Lemma sign_start_call : constants_ok E P -> bytes_ok pt -> length pt = 4 * stateSizeWords P -> bytes_ok allSeeds -> length allSeeds = 3 * numMPCRounds P * seedSizeBytes P ->
  bytes_ok salt -> length salt = saltSizeBytes P -> bytes_ok sk -> stateSizeBytes P <= length sk -> bytes_ok pub -> stateSizeBytes P <= length pub ->
  sign_call P E sign_start (fun i => (i, 0)) allSeeds salt sk pub pt.
Proof.
  intros HC Bp Lp Ba La Bs Ls Bk Lk Bb Lb. pose proof (tables_bytes E P HC) as HB.
  assert (Pr : 12 <= per_round P) by (unfold per_round; destruct (is_UR _); lia).
  assert (Hn : forall k j, k < numMPCRounds P -> j < per_round P -> round_at P k + j < n) by (intros k j Hk Hj; unfold n, round_at; nia).
  assert (Tb : forall i, i < R + 1 + R + R -> reads sign_start (sign_writes P (fun i => (i, 0))) (n + 6 + i, 0) (tables E P i)).
  { intros i Hi. apply sign_reads; [apply mem_table|apply HB|lia]. }
  split.
  - intros i j p k q l Hi Hj Hne. unfold sign_writes in Hi, Hj. rewrite nth_error_map in Hi, Hj.
    destruct (nth_error (seq 0 (round_at P (numMPCRounds P))) i) eqn:E1; [|discriminate]. destruct (nth_error (seq 0 (round_at P (numMPCRounds P))) j) eqn:E2; [|discriminate].
    injection Hi as <- <-. injection Hj as <- <-. apply blocks_disj. intros ->. apply Hne. apply (NoDup_nth_error (seq 0 (round_at P (numMPCRounds P)))); [apply seq_NoDup|apply nth_error_Some; congruence|congruence].
  - intros i Hi. exists (zeros (sign_size P i)). split; [|apply length_zeros]. split; [apply pts_block; [cbn [sign_start nx]; fold n in Hi; lia|apply mem_lo; exact Hi]|apply bytes_ok_zeros].
  - intros k j Hk Hj. assert (X : round_at P k + j < n) by (apply Hn; [exact Hk|lia]). split; [|apply bytes_ok_zeros]. apply pts_block; [cbn [sign_start nx]; lia|].
    cbn [sign_start mm]. rewrite mem_lo by exact X. f_equal. unfold sign_size, round_at. rewrite (proj2 (Nat.eqb_neq _ 0)), (proj2 (Nat.ltb_ge _ 4)) by lia.
    replace (4 + per_round P * k + j - 4) with (j + k * per_round P) by lia. rewrite Nat.mod_add, Nat.mod_small by lia. reflexivity.
  - split; [apply blocks_aligned|]. intros. apply blocks_aligned.
  - reflexivity.
  - intros k j Hk Hj. cbn [sign_start pv]. unfold args. cbn [nth]. rewrite !nth_rows by assumption. cbn [Nat.add]. auto.
  - exists (n, 0). split; [reflexivity|]. split; [|split; [apply blocks_aligned|exact Lp]]. apply sign_reads; [|exact Bp|lia]. rewrite <- (Nat.add_0_r n) at 1. apply mem_hi.
  - reflexivity.
  - intros i Hi. exists (n + 6 + i, 0). split; [apply nth_places, Hi|]. split; [|apply blocks_aligned].
    replace (KMatrix E P i) with (tables E P i) by (unfold tables; rewrite (proj2 (Nat.ltb_lt i _)) by lia; reflexivity). apply Tb. fold R in Hi. lia.
  - intros i Hi. exists (n + 6 + (R + 1) + i, 0). split; [apply nth_places, Hi|]. split; [|apply blocks_aligned]. fold R in Hi.
    replace (n + 6 + (R + 1) + i) with (n + 6 + (R + 1 + i)) by lia. replace (LMatrix E P i) with (tables E P (R + 1 + i)); [apply Tb; lia|]. unfold tables. fold R.
    rewrite (proj2 (Nat.ltb_ge (R + 1 + i) _)), (proj2 (Nat.ltb_lt (R + 1 + i) _)) by lia. f_equal. lia.
  - intros i Hi. exists (n + 6 + (R + 1 + R) + i, 0). split; [apply nth_places, Hi|]. split; [|apply blocks_aligned]. fold R in Hi.
    replace (n + 6 + (R + 1 + R) + i) with (n + 6 + (R + 1 + R + i)) by lia. replace (RConstant E P i) with (tables E P (R + 1 + R + i)); [apply Tb; lia|]. unfold tables. fold R.
    rewrite (proj2 (Nat.ltb_ge (R + 1 + R + i) (R + 1))), (proj2 (Nat.ltb_ge (R + 1 + R + i) (R + 1 + R))), (proj2 (Nat.ltb_lt (R + 1 + R + i) _)) by lia. f_equal. lia.
  - exists (n + 1, 0). split; [reflexivity|]. split; [|reflexivity]. apply sign_reads; [apply mem_hi|repeat constructor|lia].
  - exists (n + 2, 0). split; [apply sign_reads; [apply mem_hi|exact Ba|lia]|]. split; [rewrite La; auto|]. intros k j Hk Hj. cbn [sign_start pv fst snd]. unfold args. cbn [nth]. rewrite nth_map_seq by lia. reflexivity.
  - exists (n + 3, 0). split; [reflexivity|]. split; [|exact Ls]. apply sign_reads; [apply mem_hi|exact Bs|lia].
  - exists (n + 4, 0). split; [reflexivity|]. split; [|split; [apply blocks_aligned|exact Lk]]. apply sign_reads; [apply mem_hi|exact Bk|lia].
  - exists (n + 5, 0). split; [reflexivity|]. split; [|exact Lb]. apply sign_reads; [apply mem_hi|exact Bb|lia].
  - intros k j Hk Hj. cbn [sign_start pv]. unfold args. cbn [nth]. rewrite !nth_rows by assumption. auto.
Qed.
End W.

Lemma cipher_ok E P sk pt : wfP P -> lowmc_relation E P sk pt (cipher E P sk pt) /\ length (cipher E P sk pt) = stateSizeBytes P /\ bytes_ok (cipher E P sk pt).
Proof.
  intros HP. unfold cipher. match goal with |- context [pack ?n ?f] => destruct (pack_spec n f) as (L & B & X) end. split; [|split; [exact L|exact B]].
  pose proof (numBytes_spec (stateSizeBits P)) as NS. rewrite <- (wf_sB P HP) in NS. split.
  - intros i Hi. rewrite X. rewrite (proj2 (Nat.ltb_lt i (8 * _))), (proj2 (Nat.ltb_lt i (stateSizeBits P))) by lia. reflexivity.
  - intros i Hi. rewrite X. rewrite (proj2 (Nat.ltb_ge i (stateSizeBits P))) by lia. destruct (i <? _); reflexivity.
Qed.

Lemma sign_same_public E P a a' salt salt' sk sk' pub pub' pt pt' : length a = length a' -> length salt = length salt' -> length sk = length sk' -> length pub = length pub' ->
  length pt = length pt' -> same_public (sign_start E P a salt sk pub pt) (sign_start E P a' salt' sk' pub' pt').
Proof.
  intros H1 H2 H3 H4 H5. unfold same_public. repeat (split; [reflexivity|]). intros b. cbn [sign_start mm]. unfold sign_memory. destruct (_ <? _); [reflexivity|].
  destruct (b - _) as [|[|[|[|[|[|x]]]]]]; auto.
Qed.

(** Inputs made of equal bytes. *)
Definition demo_sign (P : paramset) (x : N) (pub : bytes) : state :=
  sign_start toy_env P (repeat (x + 1)%N (3 * numMPCRounds P * seedSizeBytes P)) (repeat (x + 2)%N (saltSizeBytes P)) (repeat x (stateSizeBytes P)) pub (repeat 7%N (4 * stateSizeWords P)).

Lemma repeat_ok x k : (x < 256)%N -> bytes_ok (repeat x k).
Proof. intros Hx. apply Forall_forall. intros y Hy. apply repeat_spec in Hy. subst y. exact Hx. Qed.

Lemma demo_sign_call p P x pub : get_param_set p = Some P -> (x < 200)%N -> bytes_ok pub -> stateSizeBytes P <= length pub ->
  sign_call P toy_env (demo_sign P x pub) (fun i => (i, 0)) (repeat (x + 1)%N (3 * numMPCRounds P * seedSizeBytes P)) (repeat (x + 2)%N (saltSizeBytes P)) (repeat x (stateSizeBytes P)) pub (repeat 7%N (4 * stateSizeWords P)).
Proof.
  intros HP Hx Bb Lb. apply sign_start_call; auto; try (apply repeat_ok; lia); rewrite ?repeat_length; auto. apply (toy_constants_all p P HP).
Qed.
