(** A memory in which ZKB++ verification can run: every object in a block of its own, but all third output shares in one. *)

From Coq Require Import List NArith Arith Bool Lia ZifyBool ZifyNat ZifyN.
From Verif Require Import Base Params Env Spec LowMC Picnic1 MiniC CodeLowMC CodeZkb CodeKeccak CodeSpec HashSpec CodeKeccakSpec CodeZkbSpec CodeVerRound CodeVerRoundSpec CodeVerAllSpec ApiSpec.
From Verif Require Import BaseFacts ParamFacts LowMCFacts MiniCFacts CodeRules CodeWitness CodeZkbRun CodeZkbWitness CodeSignRules CodeSignThm CodeSignWitness CodeVerRoundWitness ZkbChal CodeVerAllProofs Witness.
Import ListNotations.

Section W.
Variables (E : env) (P : paramset) (sg : signature) (pub pt msg : bytes).
Let T := numMPCRounds P.
Let A := all_count P.
Let R := numRounds P.
Notation per := (per_round P).
Definition no_proof : proof := mkProof [] [] [] [] [] [].
Definition proof_field (pr : proof) (e : nat) : bytes :=
  match e with 0 => p_seed1 pr | 1 => p_seed2 pr | 2 => p_inputShare pr | 3 => p_communicatedBits pr | 4 => p_view3Commitment pr | _ => p_view3UnruhG pr end.
Definition verify_object (i : nat) : bytes :=
  match i with
  | 0 => pt | 1 => round_constant_bytes | 2 => s_salt sg | 3 => pub | 4 => s_challengeBits sg | 5 => msg
  | _ => if i - 6 <? 6 * T then proof_field (nth ((i - 6) / 6) (s_proofs sg) no_proof) ((i - 6) mod 6) else tables E P (i - 6 - 6 * T)
  end.
(** The buffers: third output shares in block [A]. *)
Definition at_block (j : nat) : ptr := if (3 <=? j) && ((j - 3) mod per =? 9) then (A, (j - 3) / per * stateSizeBytes P) else (j, 0).
Definition verify_memory : memory := fun b =>
  if b <? A then zeros (all_size P b) else if b =? A then zeros (T * stateSizeBytes P) else verify_object (b - (A + 1)).
Definition cells (n : nat) (f : nat -> nat) : list ptr := map (fun i => (f i, 0)) (seq 0 n).
Let G := A + 1.
Definition verify_start : state :=
  mkState (fun _ => 0) (fun _ => 0%N)
    (args [] [places 1 2; cells (2 * T) (fun i => place P (3 + i mod 2) (i / 2)); cells (2 * T) (fun i => place P (5 + i mod 2) (i / 2)); cells (2 * T) (fun i => place P (7 + i mod 2) (i / 2));
              [(G + 0, 0)]; [(0, 0)]; places (G + (6 + 6 * T)) (R + 1); places (G + (6 + 6 * T) + (R + 1)) R; places (G + (6 + 6 * T) + (R + 1 + R)) R; [(G + 1, 0)];
              cells (2 * T) (fun i => G + (6 + (6 * (i / 2) + i mod 2))); [(G + 2, 0)]; cells T (fun i => G + (6 + (6 * i + 2))); [(G + 3, 0)];
              cells (3 * T) (fun i => place P (9 + i mod 3) (i / 3)); cells (3 * T) (fun i => place P (13 + i mod 3) (i / 3));
              cells T (fun i => G + (6 + (6 * i + 3))); cells T (fun i => G + (6 + (6 * i + 4))); cells T (fun i => G + (6 + (6 * i + 5)));
              [(A, 0)]; [(G + 4, 0)]; []; [(G + 5, 0)]; []])
    verify_memory (G + (6 + 6 * T) + (R + 1 + R + R)) 0.

Lemma nth_cells n f i : i < n -> nth_error (cells n f) i = Some (f i, 0).
Proof. intros H. unfold cells. rewrite nth_map_seq by exact H. reflexivity. Qed.
Lemma at_place x k : x < ver_count P -> x <> 12 -> at_block (place P x k) = (place P x k, 0).
Proof.
  intros Hx Hn. pose proof (per_count P). unfold at_block. destruct (Nat.lt_ge_cases x 3) as [L|L].
  - rewrite place_low by exact L. rewrite (proj2 (Nat.leb_gt 3 x)) by lia. reflexivity.
  - destruct (place_part P x k ltac:(lia)) as (_ & B & _). rewrite (proj2 (Nat.eqb_neq _ 9)) by lia. rewrite andb_false_r. reflexivity.
Qed.
Lemma at_slab k : at_block (place P 12 k) = (A, k * stateSizeBytes P).
Proof.
  pose proof (per_count P). pose proof (per_pos P). destruct (place_part P 12 k ltac:(lia)) as (C & B & D). unfold at_block. rewrite (proj2 (Nat.leb_le 3 _)) by lia. rewrite (proj2 (Nat.eqb_eq _ 9)) by lia. rewrite C. reflexivity.
Qed.
Lemma vmem_lo b : b < A -> verify_memory b = zeros (all_size P b).
Proof. intros H. unfold verify_memory. rewrite (proj2 (Nat.ltb_lt b A) H). reflexivity. Qed.
Lemma vmem_A : verify_memory A = zeros (T * stateSizeBytes P).
Proof. unfold verify_memory. rewrite Nat.ltb_irrefl, Nat.eqb_refl. reflexivity. Qed.
Lemma vmem_hi i : verify_memory (G + i) = verify_object i.
Proof. unfold verify_memory, G. rewrite (proj2 (Nat.ltb_ge _ A)), (proj2 (Nat.eqb_neq _ A)) by lia. f_equal. lia. Qed.
Lemma at_fst j : fst (at_block j) = j \/ fst (at_block j) = A.
Proof. unfold at_block. destruct (_ && _); [right|left]; reflexivity. Qed.
Lemma vreads i l : verify_object i = l -> bytes_ok l -> i < 6 + 6 * T + (R + 1 + R + R) -> reads verify_start (verify_writes P at_block) (G + i, 0) l.
Proof.
  intros Hm Hb Hn. split; [apply pts_block; [cbn [verify_start nx]; lia|cbn [verify_start mm]; rewrite vmem_hi; exact Hm]|]. split; [exact Hb|]. intros p k Hp.
  unfold verify_writes in Hp. apply in_map_iff in Hp. destruct Hp as (j & Hj & Hp). apply in_seq in Hp. injection Hj as Hj1 Hj2. left. rewrite <- Hj1. cbn [fst]. fold A in Hp. destruct (at_fst j); unfold G; lia.
Qed.
Lemma proof_object k e : k < T -> e < 6 -> verify_object (6 + (6 * k + e)) = proof_field (nth k (s_proofs sg) no_proof) e.
Proof.
  intros Hk He. change (verify_object (6 + (6 * k + e))) with (if 6 + (6 * k + e) - 6 <? 6 * T then proof_field (nth ((6 + (6 * k + e) - 6) / 6) (s_proofs sg) no_proof) ((6 + (6 * k + e) - 6) mod 6) else tables E P (6 + (6 * k + e) - 6 - 6 * T)).
  replace (6 + (6 * k + e) - 6) with (6 * k + e) by lia. rewrite (proj2 (Nat.ltb_lt _ _)) by lia.
  replace ((6 * k + e) / 6) with k by (apply (Nat.div_unique (6 * k + e) 6 k e); lia). replace ((6 * k + e) mod 6) with e by (apply (Nat.mod_unique (6 * k + e) 6 k e); lia). reflexivity.
Qed.
Lemma table_object i : verify_object (6 + 6 * T + i) = tables E P i.
Proof.
  change (verify_object (6 + 6 * T + i)) with (if 6 + 6 * T + i - 6 <? 6 * T then proof_field (nth ((6 + 6 * T + i - 6) / 6) (s_proofs sg) no_proof) ((6 + 6 * T + i - 6) mod 6) else tables E P (6 + 6 * T + i - 6 - 6 * T)).
  rewrite (proj2 (Nat.ltb_ge _ _)) by lia. f_equal. lia.
Qed.
Lemma at_disj i j : i < A -> j < A -> i <> j -> disj (at_block i) (all_size P i) (at_block j) (all_size P j).
Proof.
  intros Hi Hj Hn. pose proof (per_pos P) as Pp. pose proof (per_count P) as Pc.
  assert (X : forall i, i < A -> (exists k, i = place P 12 k /\ at_block i = (A, k * stateSizeBytes P) /\ all_size P i = stateSizeBytes P) \/ at_block i = (i, 0)).
  { intros i' Hi'. destruct (place_inv P i' Hi') as [L|(x & k & Hx & Hk & ->)]; [right; rewrite <- (place_low P i' 0 L) at 1; rewrite at_place by lia; rewrite place_low by exact L; reflexivity|].
    destruct (Nat.eq_dec x 12) as [->|Ne]; [left; exists k; split; [reflexivity|]; split; [apply at_slab|apply (place_size P 12 k); lia]|right; apply at_place; lia]. }
  destruct (X i Hi) as [(k & Ek & Ei & Si)|Ei], (X j Hj) as [(k' & Ek' & Ej & Sj)|Ej]; rewrite Ei, Ej.
  - rewrite Si, Sj. right. cbn [snd]. assert (k <> k') by congruence. destruct (Nat.lt_trichotomy k k') as [L|[L|L]]; [left; nia|congruence|right; nia].
  - left. cbn [fst]. lia.
  - left. cbn [fst]. lia.
  - left. cbn [fst]. exact Hn.
Qed.
Lemma at_holds j : j < A -> CodeZkbSpec.holds verify_start (at_block j) (zeros (all_size P j)).
Proof.
  intros Hj. split; [|apply bytes_ok_zeros]. pose proof (per_pos P) as Pp. pose proof (per_count P) as Pc.
  assert (X : at_block j = (j, 0) -> pts (nx verify_start) (mm verify_start) (at_block j) (zeros (all_size P j))) by (intros ->; apply pts_block; [cbn [verify_start nx]; unfold G; lia|apply vmem_lo, Hj]).
  destruct (place_inv P j Hj) as [L|(x & k & Hx & Hk & ->)]; [apply X; rewrite <- (place_low P j 0 L); apply at_place; lia|].
  destruct (Nat.eq_dec x 12) as [->|Ne]; [|apply X, at_place; lia].
  rewrite at_slab, place_size by lia. cbn [ver_size]. split; [cbn [verify_start nx fst]; unfold G; lia|]. intros i b Hb. cbn [verify_start mm fst snd]. rewrite vmem_A.
  assert (Li : i < stateSizeBytes P) by (rewrite <- (length_zeros (stateSizeBytes P)); apply nth_error_Some; congruence). unfold zeros in *. rewrite nth_error_repeat in Hb by exact Li. injection Hb as <-. apply nth_error_repeat. fold T in Hk. nia.
Qed.

Lemma verify_start_call : stateSizeBytes P mod 4 = 0 -> constants_ok E P -> bytes_ok pt -> length pt = 4 * stateSizeWords P -> bytes_ok (s_salt sg) -> length (s_salt sg) = saltSizeBytes P ->
  bytes_ok pub -> stateSizeBytes P <= length pub -> short pub -> bytes_ok msg -> short msg -> bytes_ok (s_challengeBits sg) -> length (s_challengeBits sg) = numBytes (2 * T) ->
  (forall k, k < T -> exists ch, getChallenge (s_challengeBits sg) k = Ok ch /\ ch < 3) ->
  (forall k, k < T -> exists pr, nth_error (s_proofs sg) k = Some pr /\ (forall e, bytes_ok (proof_field pr e)) /\ length (p_seed1 pr) = seedSizeBytes P /\ length (p_seed2 pr) = seedSizeBytes P /\
     length (p_inputShare pr) = stateSizeBytes P /\ length (p_communicatedBits pr) = andSizeBytes P /\ length (p_view3Commitment pr) = digestSizeBytes P /\ length (p_view3UnruhG pr) = UnruhGWithInputBytes P) ->
  verify_call P E verify_start at_block sg pub pt msg.
Proof.
  intros HA HC Bp Lp Bs Ls Bb Lb Sb Bm Sm Bc Lc Ht Hpr. pose proof (tables_bytes E P HC) as HB. pose proof (per_pos P) as Pp. pose proof (per_count P) as Pc.
  assert (Tb : forall i, i < R + 1 + R + R -> reads verify_start (verify_writes P at_block) (G + (6 + 6 * T) + i, 0) (tables E P i)).
  { intros i Hi. rewrite <- Nat.add_assoc. apply vreads; [apply table_object|apply HB|lia]. }
  assert (D2 : forall k e, e < 2 -> (2 * k + e) / 2 = k /\ (2 * k + e) mod 2 = e) by (intros k e He; split; [symmetry; apply (Nat.div_unique (2 * k + e) 2 k e); lia|symmetry; apply (Nat.mod_unique (2 * k + e) 2 k e); lia]).
  assert (D3 : forall k e, e < 3 -> (3 * k + e) / 3 = k /\ (3 * k + e) mod 3 = e) by (intros k e He; split; [symmetry; apply (Nat.div_unique (3 * k + e) 3 k e); lia|symmetry; apply (Nat.mod_unique (3 * k + e) 3 k e); lia]).
  split.
  - intros i j p k p' l Hi Hj Hne. unfold verify_writes in Hi, Hj. rewrite nth_error_map in Hi, Hj. fold A in Hi, Hj.
    destruct (nth_error (seq 0 A) i) as [a|] eqn:E1; [|discriminate]. destruct (nth_error (seq 0 A) j) as [b|] eqn:E2; [|discriminate].
    injection Hi as <- <-. injection Hj as <- <-. pose proof (nth_error_In _ _ E1) as I1. pose proof (nth_error_In _ _ E2) as I2. apply in_seq in I1, I2. apply at_disj; [lia|lia|].
    intros ->. apply Hne. apply (NoDup_nth_error (seq 0 A)); [apply seq_NoDup|apply nth_error_Some; congruence|congruence].
  - intros j Hj. exists (zeros (all_size P j)). split; [apply at_holds, Hj|apply length_zeros].
  - intros x k Hx Hk. rewrite <- (place_size P x k) by lia. apply at_holds, place_lt; [lia|exact Hk].
  - split; [rewrite <- (place_low P 0 0) by lia; rewrite at_place by lia; apply blocks_aligned|]. intros k Hk. rewrite !at_place by lia. repeat split.
  - exists (A, 0). split; [reflexivity|]. split; [apply blocks_aligned|]. intros k Hk. apply at_slab.
  - assert (X : forall x, x < 3 -> at_block x = (x, 0)) by (intros x Hx; rewrite <- (place_low P x 0) at 1 by lia; rewrite at_place by lia; rewrite place_low by lia; reflexivity). rewrite !X by lia. split; reflexivity.
  - intros k Hk. fold T in Hk. unfold buffer. split.
    + intros e He. rewrite !at_place by lia. cbn [verify_start pv args nth]. rewrite !nth_cells by lia. destruct (D2 k e He) as [-> ->]. auto.
    + intros j Hj. rewrite at_place by lia. cbn [verify_start pv args nth]. rewrite nth_cells by lia. destruct (D3 k j Hj) as [-> ->]. split; [reflexivity|]. intros Hu. assert (ver_count P = 16) by (unfold ver_count; rewrite Hu; reflexivity). rewrite at_place by lia.
      rewrite nth_cells by lia. destruct (D3 k j Hj) as [-> ->]. reflexivity.
  - exists (G + 0, 0). split; [reflexivity|]. split; [|split; [apply blocks_aligned|exact Lp]]. apply vreads; [reflexivity|exact Bp|lia].
  - intros i Hi. exists (G + (6 + 6 * T) + i, 0). split; [apply nth_places, Hi|]. split; [|apply blocks_aligned].
    replace (KMatrix E P i) with (tables E P i) by (unfold tables; rewrite (proj2 (Nat.ltb_lt i _)) by lia; reflexivity). apply Tb. fold R in Hi. lia.
  - intros i Hi. exists (G + (6 + 6 * T) + (R + 1) + i, 0). split; [apply nth_places, Hi|]. split; [|apply blocks_aligned]. fold R in Hi.
    replace (G + (6 + 6 * T) + (R + 1) + i) with (G + (6 + 6 * T) + (R + 1 + i)) by lia. replace (LMatrix E P i) with (tables E P (R + 1 + i)); [apply Tb; lia|]. unfold tables. fold R.
    rewrite (proj2 (Nat.ltb_ge (R + 1 + i) _)), (proj2 (Nat.ltb_lt (R + 1 + i) _)) by lia. f_equal. lia.
  - intros i Hi. exists (G + (6 + 6 * T) + (R + 1 + R) + i, 0). split; [apply nth_places, Hi|]. split; [|apply blocks_aligned]. fold R in Hi.
    replace (G + (6 + 6 * T) + (R + 1 + R) + i) with (G + (6 + 6 * T) + (R + 1 + R + i)) by lia. replace (RConstant E P i) with (tables E P (R + 1 + R + i)); [apply Tb; lia|]. unfold tables. fold R.
    rewrite (proj2 (Nat.ltb_ge (R + 1 + R + i) (R + 1))), (proj2 (Nat.ltb_ge (R + 1 + R + i) (R + 1 + R))), (proj2 (Nat.ltb_lt (R + 1 + R + i) _)) by lia. f_equal. lia.
  - exists (G + 1, 0). split; [reflexivity|]. split; [|reflexivity]. apply vreads; [reflexivity|repeat constructor|lia].
  - exists (G + 2, 0). split; [reflexivity|]. split; [|exact Ls]. apply vreads; [reflexivity|exact Bs|lia].
  - exists (G + 3, 0). split; [reflexivity|]. split; [|split; [apply blocks_aligned|split; [exact Lb|exact Sb]]]. apply vreads; [reflexivity|exact Bb|lia].
  - exists (G + 4, 0). split; [reflexivity|]. split; [|exact Lc]. apply vreads; [reflexivity|exact Bc|lia].
  - exists (G + 5, 0). split; [reflexivity|]. split; [|exact Sm]. apply vreads; [reflexivity|exact Bm|lia].
  - exact Ht.
  - intros k Hk. fold T in Hk. destruct (Hpr k Hk) as (pr & Np & Bf & L1 & L2 & L3 & L4 & L5 & L6). exists pr. split; [exact Np|].
    assert (F : forall e, e < 6 -> reads verify_start (verify_writes P at_block) (G + (6 + (6 * k + e)), 0) (proof_field pr e)) by (intros e He; apply vreads; [rewrite proof_object by auto; f_equal; apply nth_error_nth, Np|apply Bf|lia]).
    split; [intros e He; split|].
    + exists (G + (6 + (6 * k + e)), 0). split; [cbn [verify_start pv args nth]; rewrite nth_cells by lia; destruct (D2 k e He) as [-> ->]; reflexivity|]. replace (proof_seed pr e) with (proof_field pr e) by (destruct e as [|[|e]]; [reflexivity|reflexivity|lia]). apply F. lia.
    + unfold proof_seed. destruct (e =? 0); assumption.
    + split; [exists (G + (6 + (6 * k + 2)), 0); split; [cbn [verify_start pv args nth]; rewrite nth_cells by exact Hk; reflexivity|apply (F 2); lia]|]. split; [exact L3|].
      split; [exists (G + (6 + (6 * k + 3)), 0); split; [cbn [verify_start pv args nth]; rewrite nth_cells by exact Hk; reflexivity|apply (F 3); lia]|]. split; [exact L4|].
      split; [exists (G + (6 + (6 * k + 4)), 0); split; [cbn [verify_start pv args nth]; rewrite nth_cells by exact Hk; reflexivity|apply (F 4); lia]|]. split; [exact L5|].
      intros _. split; [|exact L6]. exists (G + (6 + (6 * k + 5)), 0). split; [cbn [verify_start pv args nth]; rewrite nth_cells by exact Hk; reflexivity|apply (F 5); lia].
Qed.
End W.

(** A signature made of equal bytes in which every value of the challenge occurs (0, 2, 1, 0, ...). *)
Definition demo_signature (P : paramset) (x : N) : signature :=
  mkSig (repeat (demo_proof P x) (numMPCRounds P)) (repeat 24%N (numBytes (2 * numMPCRounds P))) (repeat 3%N (saltSizeBytes P)).
Definition demo_verify (P : paramset) (x : N) (msg : bytes) : state :=
  verify_start toy_env P (demo_signature P x) (repeat 5%N (stateSizeBytes P)) (repeat 7%N (4 * stateSizeWords P)) msg.

Lemma demo_trits n k : 2 * k + 1 < 8 * n -> getChallenge (repeat 24%N n) k = Ok (nth (k mod 4) [0; 2; 1; 0] 0).
Proof.
  intros H. unfold getChallenge, getBit. assert (D : k = 4 * (k / 4) + k mod 4) by (apply Nat.div_mod; lia). pose proof (Nat.mod_upper_bound k 4 ltac:(lia)) as M. set (d := k / 4) in *. set (r := k mod 4) in *. clearbody d r. subst k.
  replace ((2 * (4 * d + r) + 1) / 8) with d by (apply (Nat.div_unique _ 8 d (2 * r + 1)); lia). replace ((2 * (4 * d + r) + 1) mod 8) with (2 * r + 1) by (apply (Nat.mod_unique _ 8 d (2 * r + 1)); lia).
  replace ((2 * (4 * d + r)) / 8) with d by (apply (Nat.div_unique _ 8 d (2 * r)); lia). replace ((2 * (4 * d + r)) mod 8) with (2 * r) by (apply (Nat.mod_unique _ 8 d (2 * r)); lia).
  rewrite (rd_some (repeat 24%N n) d 24%N) by (apply nth_error_repeat; lia). cbn [bind]. destruct r as [|[|[|[|r]]]]; [reflexivity|reflexivity|reflexivity|reflexivity|lia].
Qed.

Lemma demo_verify_call p P x msg : get_param_set p = Some P -> stateSizeBytes P mod 4 = 0 -> (x < 200)%N -> bytes_ok msg -> short msg ->
  verify_call P toy_env (demo_verify P x msg) (at_block P) (demo_signature P x) (repeat 5%N (stateSizeBytes P)) (repeat 7%N (4 * stateSizeWords P)) msg.
Proof.
  intros HP HA Hx Bm Sm. pose proof (numBytes_spec (2 * numMPCRounds P)) as Nb. apply verify_start_call; auto.
  - apply (toy_constants_all p P HP).
  - apply repeat_ok; lia.
  - apply repeat_length.
  - apply repeat_ok; lia.
  - apply repeat_length.
  - apply repeat_ok; lia.
  - rewrite repeat_length. lia.
  - apply (CodeSignProofs.small_short P); [apply (get_param_set_small p P HP)|]. rewrite repeat_length. lia.
  - apply repeat_ok; lia.
  - apply repeat_length.
  - intros k Hk. exists (nth (k mod 4) [0; 2; 1; 0] 0). split; [apply demo_trits; lia|]. pose proof (Nat.mod_upper_bound k 4 ltac:(lia)). destruct (k mod 4) as [|[|[|[|r]]]]; cbn [nth]; lia.
  - intros k Hk. exists (demo_proof P x). split; [apply nth_error_repeat; exact Hk|]. split.
    + intros e. do 5 (destruct e as [|e]; [apply repeat_ok; lia|]). apply repeat_ok; lia.
    + cbn [demo_proof p_seed1 p_seed2 p_inputShare p_communicatedBits p_view3Commitment p_view3UnruhG]. rewrite !repeat_length. auto 10.
Qed.
