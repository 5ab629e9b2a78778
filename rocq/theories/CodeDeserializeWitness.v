(** Memories in which a ZKB++ signature can be read from bytes, and verified: every object in a block of its own. *)

From Coq Require Import List NArith Arith Bool Lia ZifyBool ZifyNat ZifyN.
From Verif Require Import Base Params Env Spec LowMC Picnic1 MiniC CodeLowMC CodeSpec HashSpec CodeKeccakSpec CodeZkbSpec CodeVerRoundSpec CodeVerAllSpec CodeDeserializeSpec Api ApiSpec.
From Verif Require Import BaseFacts ParamFacts MiniCFacts CodeRules CodeHeap CodeWitness CodeZkbRun CodeZkbWitness CodeSignThm CodeSignWitness ZkbChal CodeP3Lin ApiFacts CodeVerifyProofs CodeVerAllProofs CodeVerAllWitness Witness.
Import ListNotations.

Lemma parts_bounds P : 5 <= parts P <= 6.
Proof. unfold parts. destruct (is_UR _); lia. Qed.
Lemma part_index P k e : e < parts P -> (part_at P k e - 2) / parts P = k /\ (part_at P k e - 2) mod parts P = e.
Proof.
  intros He. unfold part_at. replace (2 + parts P * k + e - 2) with (parts P * k + e) by lia.
  split; [symmetry; apply (Nat.div_unique _ _ k e); lia|symmetry; apply (Nat.mod_unique _ _ k e); lia].
Qed.
Lemma part_lt P k e : k < numMPCRounds P -> e < parts P -> part_at P k e < sig_count P.
Proof. intros Hk He. unfold part_at, sig_count. nia. Qed.
Lemma fresh_sized E P k e : env_bytes_ok E -> e < parts P -> length (proof_part (allocateProof E P site_vproof k) e) = part_size P e /\ bytes_ok (proof_part (allocateProof E P site_vproof k) e).
Proof. intros [_ HU] He. destruct e as [|[|[|[|[|e]]]]]; apply HU. Qed.

(** ** Any string, any contents of the memory allocated *)
Section D.
Variables (E : env) (P : paramset) (sg : bytes).
Let n := sig_count P.
Definition read_memory : memory := fun b =>
  if b =? n then sg else if b =? 0 then zeros (saltSizeBytes P) else if b =? 1 then zeros (numBytes (2 * numMPCRounds P))
  else proof_part (allocateProof E P site_vproof ((b - 2) / parts P)) ((b - 2) mod parts P).
Definition read_start : state :=
  mkState (args 0 [length sg]) (fun _ => 0%N) (args [] [[(n, 0)]; [(1, 0)]; [(0, 0)]; places 2 (parts P * numMPCRounds P)]) read_memory (S n) 0.
Lemma read_start_call : env_bytes_ok E -> bytes_ok sg -> deserialize_call P E read_start (fun j => (j, 0)) (n, 0) sg.
Proof.
  intros HE Hb. pose proof (parts_bounds P) as Pb. assert (Hn : 2 <= n) by (unfold n, sig_count; lia).
  assert (H : forall b l, b <= n -> read_memory b = l -> bytes_ok l -> CodeZkbSpec.holds read_start (b, 0) l) by (intros b l Hl Hm Ok; split; [apply pts_block; [cbn [read_start nx]; lia|exact Hm]|exact Ok]).
  split.
  - split.
    + intros i j p k p' l Hi Hj Hne. unfold sig_writes in Hi, Hj. rewrite nth_error_map in Hi, Hj. fold n in Hi, Hj.
      destruct (nth_error (seq 0 n) i) as [a|] eqn:E1; [|discriminate]. destruct (nth_error (seq 0 n) j) as [b|] eqn:E2; [|discriminate]. injection Hi as <- <-. injection Hj as <- <-. left. cbn [fst].
      intros ->. apply Hne. apply (NoDup_nth_error (seq 0 n)); [apply seq_NoDup|apply nth_error_Some; congruence|congruence].
    + exists (zeros (saltSizeBytes P)). split; [apply H; [lia| |apply bytes_ok_zeros]|apply length_zeros]. unfold read_memory. rewrite (proj2 (Nat.eqb_neq 0 n)) by lia. reflexivity.
    + exists (zeros (numBytes (2 * numMPCRounds P))). split; [apply H; [lia| |apply bytes_ok_zeros]|apply length_zeros]. unfold read_memory. rewrite (proj2 (Nat.eqb_neq 1 n)) by lia. reflexivity.
    + intros k e Hk He. destruct (fresh_sized E P k e HE He) as [A B]. split; [|exact A]. pose proof (part_lt P k e Hk He) as Lt. fold n in Lt. apply H; [lia| |exact B].
      unfold read_memory. assert (2 <= part_at P k e) by (unfold part_at; lia). rewrite (proj2 (Nat.eqb_neq _ n)), (proj2 (Nat.eqb_neq _ 0)), (proj2 (Nat.eqb_neq _ 1)) by lia. destruct (part_index P k e He) as [-> ->]. reflexivity.
  - reflexivity.
  - split; [reflexivity|]. split; [apply pts_block; [cbn [read_start nx]; lia|cbn [read_start mm]; unfold read_memory; rewrite Nat.eqb_refl; reflexivity]|]. split; [exact Hb|].
    intros p k Hi. unfold sig_writes in Hi. apply in_map_iff in Hi. destruct Hi as (j & Ej & Hi). apply in_seq in Hi. injection Ej as <- <-. left. cbn [fst]. fold n in Hi. lia.
  - reflexivity.
  - reflexivity.
  - intros k e Hk He. cbn [read_start pv]. unfold args. cbn [nth]. rewrite (nth_places 2) by nia. unfold part_at. rewrite Nat.add_assoc. reflexivity.
Qed.
Lemma read_ends : length (mm read_start (fst (n, 0))) = snd (n, 0) + length sg.
Proof. cbn [read_start mm fst snd]. unfold read_memory. rewrite Nat.eqb_refl. reflexivity. Qed.
End D.

(** ** Verification *)
Section V.
Variables (E : env) (P : paramset) (sg pub pt msg : bytes).
Let T := numMPCRounds P.
Let A := all_count P.
Let R := numRounds P.
Let G := A + 1.
Definition blank : signature := mkSig (map (allocateProof E P site_vproof) (seq 0 T)) (zeros (numBytes (2 * T))) (zeros (saltSizeBytes P)).
Definition kept (j : nat) : ptr := if j =? 0 then (G + 2, 0) else if j =? 1 then (G + 4, 0) else (G + (6 + (6 * ((j - 2) / parts P) + (j - 2) mod parts P)), 0).
Let v := verify_start E P blank pub pt msg.
Definition receive_start : state :=
  mkState (upd (iv v) 10 (length sg)) (dv v) (upd (upd (pv v) 25 [(nx v, 0)]) 24 (map (fun i => kept (2 + i)) (seq 0 (parts P * T)))) (upd (mm v) (nx v) sg) (S (nx v)) (ct v).

Lemma kept_part k e : e < parts P -> kept (part_at P k e) = (G + (6 + (6 * k + e)), 0).
Proof. intros He. unfold kept. destruct (part_index P k e He) as [-> ->]. unfold part_at. reflexivity. Qed.
Lemma kept_cases j : j < sig_count P -> j = 0 /\ fst (kept j) = G + 2 \/ j = 1 /\ fst (kept j) = G + 4 \/ exists k e, k < T /\ e < parts P /\ j = part_at P k e /\ fst (kept j) = G + (6 + (6 * k + e)).
Proof.
  intros Hj. pose proof (parts_bounds P) as Pb. destruct j as [|[|j]]; [auto|auto|]. right. right. unfold sig_count in Hj. fold T in Hj. exists (j / parts P), (j mod parts P).
  pose proof (Nat.div_mod j (parts P) ltac:(lia)) as D. pose proof (Nat.mod_upper_bound j (parts P) ltac:(lia)) as M. assert (Ej : S (S j) = part_at P (j / parts P) (j mod parts P)) by (unfold part_at; lia).
  split; [apply Nat.div_lt_upper_bound; lia|]. split; [exact M|]. split; [exact Ej|]. rewrite Ej at 1. rewrite kept_part by exact M. reflexivity.
Qed.
Lemma kept_range j : j < sig_count P -> exists i, fst (kept j) = G + i /\ snd (kept j) = 0 /\ (i = 2 \/ i = 4 \/ 6 <= i < 6 + 6 * T).
Proof.
  intros Hj. assert (S0 : snd (kept j) = 0) by (unfold kept; destruct (j =? 0); [reflexivity|]; destruct (j =? 1); reflexivity). pose proof (parts_bounds P) as Pb.
  destruct (kept_cases j Hj) as [[_ F]|[[_ F]|(k & e & Hk & He & _ & F)]]; rewrite F; eexists; (split; [reflexivity|]); (split; [exact S0|]); [auto|auto|right; right; lia].
Qed.
Lemma kept_inj i j : i < sig_count P -> j < sig_count P -> fst (kept i) = fst (kept j) -> i = j.
Proof.
  intros Hi Hj. pose proof (parts_bounds P) as Pb. destruct (kept_cases i Hi) as [[I F]|[[I F]|(k & e & Hk & He & I & F)]], (kept_cases j Hj) as [[J F']|[[J F']|(k' & e' & Hk' & He' & J & F')]]; rewrite F, F'; intros X; try lia.
  assert (k = k') by lia. assert (e = e') by lia. congruence.
Qed.
Lemma in_kept p k : In (p, k) (sig_writes P kept) -> exists j, j < sig_count P /\ p = kept j /\ k = CodeDeserializeSpec.sig_size P j.
Proof. intros Hi. unfold sig_writes in Hi. apply in_map_iff in Hi. destruct Hi as (j & Ej & Hi). apply in_seq in Hi. injection Ej as <- <-. exists j. split; [lia|auto]. Qed.
Lemma in_blocks p k : In (p, k) (verify_writes P (at_block P)) -> fst p <= A.
Proof. intros Hi. unfold verify_writes in Hi. apply in_map_iff in Hi. destruct Hi as (j & Ej & Hi). apply in_seq in Hi. injection Ej as <- <-. fold A in Hi. destruct (at_fst P j) as [F|F]; rewrite F; unfold A in *; lia. Qed.

Lemma old l p : CodeZkbSpec.holds v p l -> CodeZkbSpec.holds receive_start p l.
Proof. intros [X Y]. split; [apply pts_new, X|exact Y]. Qed.
Lemma vread i l : verify_object E P blank pub pt msg i = l -> bytes_ok l -> i < 6 + 6 * T + (R + 1 + R + R) -> ~ (i = 2 \/ i = 4 \/ 6 <= i < 6 + 6 * T) ->
  reads receive_start (allocated P (at_block P) kept) (G + i, 0) l.
Proof.
  intros Ho Hb Hi Hn. destruct (vreads E P blank pub pt msg i l Ho Hb Hi) as (X & Y & Z). split; [apply pts_new, X|]. split; [exact Y|].
  intros p k Hp. unfold allocated in Hp. apply in_app_or in Hp. destruct Hp as [Hp|Hp]; [apply Z, Hp|]. destruct (in_kept p k Hp) as (j & Hj & -> & _). left. cbn [fst]. destruct (kept_range j Hj) as (i' & F & _ & C). rewrite F. intros W. apply Hn. replace i with i' by lia. exact C.
Qed.

Lemma getChallenge_zeros n k : 2 * k + 1 < 8 * n -> getChallenge (zeros n) k = Ok 0.
Proof.
  intros H. unfold getChallenge, getBit, zeros. assert ((2 * k + 1) / 8 < n) by (apply Nat.div_lt_upper_bound; lia). assert (2 * k / 8 < n) by (apply Nat.div_lt_upper_bound; lia).
  rewrite (rd_some (repeat 0%N n) ((2 * k + 1) / 8) 0%N), (rd_some (repeat 0%N n) (2 * k / 8) 0%N) by (apply nth_error_repeat; assumption). cbn [bind]. rewrite !N.shiftr_0_l. reflexivity.
Qed.

Lemma receive_start_call : env_bytes_ok E -> stateSizeBytes P mod 4 = 0 -> constants_ok E P -> bytes_ok pt -> length pt = 4 * stateSizeWords P ->
  bytes_ok pub -> stateSizeBytes P <= length pub -> short pub -> bytes_ok msg -> short msg -> bytes_ok sg ->
  received_call P E receive_start (at_block P) kept (nx v, 0) sg pub pt msg.
Proof.
  intros HE HA HC Bp Lp Bb Lb Sb Bm Sm Bs. pose proof (parts_bounds P) as Pb. pose proof (numBytes_spec (2 * T)) as Nb. pose proof (tables_bytes E P HC) as HB.
  assert (HV : verify_call P E v (at_block P) blank pub pt msg).
  { apply verify_start_call; auto; cbn [blank s_salt s_challengeBits s_proofs]; try apply bytes_ok_zeros; try apply length_zeros.
    - intros k Hk. fold T in Hk. exists 0. split; [apply getChallenge_zeros; lia|lia].
    - intros k Hk. fold T in Hk. exists (allocateProof E P site_vproof k). split; [apply nth_map_seq, Hk|]. destruct HE as [_ HU]. split; [intros e; destruct e as [|[|[|[|[|e]]]]]; apply HU|]. cbn [allocateProof p_seed1 p_seed2 p_inputShare p_communicatedBits p_view3Commitment p_view3UnruhG]. repeat split; apply HU. }
  assert (Nv : nx v = G + (6 + 6 * T) + (R + 1 + R + R)) by reflexivity.
  assert (Ob : forall i l, verify_object E P blank pub pt msg i = l -> bytes_ok l -> i < 6 + 6 * T + (R + 1 + R + R) -> CodeZkbSpec.holds receive_start (G + i, 0) l).
  { intros i l Ho Hb Hi. destruct (vreads E P blank pub pt msg i l Ho Hb Hi) as (X & Y & _). apply old. split; assumption. }
  assert (Tb : forall i, i < R + 1 + R + R -> reads receive_start (allocated P (at_block P) kept) (G + (6 + 6 * T) + i, 0) (tables E P i)).
  { intros i Hi. rewrite <- Nat.add_assoc. apply vread; [apply table_object|apply HB|lia|lia]. }
  split.
  - intros i j p k p' l Hi Hj Hne. unfold allocated in Hi, Hj.
    assert (Lw : length (verify_writes P (at_block P)) = A) by (unfold verify_writes; rewrite map_length; apply seq_length).
    assert (Sk : forall i p k, A <= i -> nth_error (verify_writes P (at_block P) ++ sig_writes P kept) i = Some (p, k) -> i - A < sig_count P /\ p = kept (i - A)).
    { intros i0 p0 k0 L H. rewrite nth_error_app2 in H by lia. rewrite Lw in H. unfold sig_writes in H. rewrite nth_error_map in H. destruct (nth_error (seq 0 (sig_count P)) (i0 - A)) as [a|] eqn:En; [|discriminate]. injection H as <- _.
      assert (Li : i0 - A < length (seq 0 (sig_count P))) by (apply nth_error_Some; congruence). rewrite seq_length in Li. split; [exact Li|]. apply (nth_error_nth _ _ 0) in En. rewrite seq_nth in En by exact Li. rewrite <- En. reflexivity. }
    destruct (Nat.lt_ge_cases i A) as [Li|Li], (Nat.lt_ge_cases j A) as [Lj|Lj].
    + rewrite nth_error_app1 in Hi, Hj by lia. apply (vw_apart _ _ _ _ _ _ _ _ HV i j); assumption.
    + rewrite nth_error_app1 in Hi by lia. pose proof (in_blocks p k (nth_error_In _ _ Hi)) as B1. destruct (Sk j p' l Lj Hj) as [Lt ->]. destruct (kept_range _ Lt) as (i' & F & _). left. rewrite F. unfold G. lia.
    + rewrite nth_error_app1 in Hj by lia. pose proof (in_blocks p' l (nth_error_In _ _ Hj)) as B1. destruct (Sk i p k Li Hi) as [Lt ->]. destruct (kept_range _ Lt) as (i' & F & _). left. rewrite F. unfold G. lia.
    + destruct (Sk i p k Li Hi) as [Lt ->], (Sk j p' l Lj Hj) as [Lt' ->]. left. intros X. apply (kept_inj _ _ Lt Lt') in X. lia.
  - split.
    + intros i j p k p' l Hi Hj Hne. unfold sig_writes in Hi, Hj. rewrite nth_error_map in Hi, Hj.
      destruct (nth_error (seq 0 (sig_count P)) i) as [a|] eqn:E1; [|discriminate]. destruct (nth_error (seq 0 (sig_count P)) j) as [b|] eqn:E2; [|discriminate]. injection Hi as <- <-. injection Hj as <- <-. left.
      pose proof (nth_error_In _ _ E1) as I1. pose proof (nth_error_In _ _ E2) as I2. apply in_seq in I1, I2. intros X. apply kept_inj in X; [|lia|lia]. subst b.
      apply Hne. apply (NoDup_nth_error (seq 0 (sig_count P))); [apply seq_NoDup|apply nth_error_Some; congruence|congruence].
    + exists (zeros (saltSizeBytes P)). split; [|apply length_zeros]. apply (Ob 2); [reflexivity|apply bytes_ok_zeros|lia].
    + exists (zeros (numBytes (2 * T))). split; [|apply length_zeros]. apply (Ob 4); [reflexivity|apply bytes_ok_zeros|lia].
    + intros k e Hk He. fold T in Hk. destruct (fresh_sized E P k e HE He) as [X Y]. split; [|exact X]. rewrite kept_part by exact He. apply Ob; [|exact Y|lia].
      rewrite proof_object by (fold T; lia). cbn [blank s_proofs]. rewrite (nth_error_nth _ k no_proof (nth_map_seq (allocateProof E P site_vproof) T k Hk)). reflexivity.
  - reflexivity.
  - split; [reflexivity|]. split; [apply pts_local|]. split; [exact Bs|]. intros p k Hp. destruct (in_kept p k Hp) as (j & Hj & -> & _). left. cbn [fst]. destruct (kept_range j Hj) as (i & F & _ & C). rewrite F, Nv. lia.
  - intros j Hj. destruct (vw_room _ _ _ _ _ _ _ _ HV j Hj) as (l & X & Y). exists l. split; [apply old, X|exact Y].
  - intros x k Hx Hk. apply old. apply (vw_calloc _ _ _ _ _ _ _ _ HV); assumption.
  - apply (vw_align _ _ _ _ _ _ _ _ HV).
  - apply (vw_slab _ _ _ _ _ _ _ _ HV).
  - apply (vw_shared _ _ _ _ _ _ _ _ HV).
  - intros k Hk. apply (vw_bufs _ _ _ _ _ _ _ _ HV k Hk).
  - exists (G + 0, 0). split; [reflexivity|]. split; [|split; [apply blocks_aligned|exact Lp]]. apply vread; [reflexivity|exact Bp|lia|lia].
  - intros i Hi. exists (G + (6 + 6 * T) + i, 0). split; [apply nth_places, Hi|]. split; [|apply blocks_aligned].
    replace (KMatrix E P i) with (tables E P i) by (unfold tables; rewrite (proj2 (Nat.ltb_lt i _)) by lia; reflexivity). apply Tb. fold R in Hi. lia.
  - intros i Hi. exists (G + (6 + 6 * T) + (R + 1) + i, 0). split; [apply nth_places, Hi|]. split; [|apply blocks_aligned]. fold R in Hi.
    replace (G + (6 + 6 * T) + (R + 1) + i) with (G + (6 + 6 * T) + (R + 1 + i)) by lia. replace (LMatrix E P i) with (tables E P (R + 1 + i)); [apply Tb; lia|]. unfold tables. fold R.
    rewrite (proj2 (Nat.ltb_ge (R + 1 + i) _)), (proj2 (Nat.ltb_lt (R + 1 + i) _)) by lia. f_equal. lia.
  - intros i Hi. exists (G + (6 + 6 * T) + (R + 1 + R) + i, 0). split; [apply nth_places, Hi|]. split; [|apply blocks_aligned]. fold R in Hi.
    replace (G + (6 + 6 * T) + (R + 1 + R) + i) with (G + (6 + 6 * T) + (R + 1 + R + i)) by lia. replace (RConstant E P i) with (tables E P (R + 1 + R + i)); [apply Tb; lia|]. unfold tables. fold R.
    rewrite (proj2 (Nat.ltb_ge (R + 1 + R + i) (R + 1))), (proj2 (Nat.ltb_ge (R + 1 + R + i) (R + 1 + R))), (proj2 (Nat.ltb_lt (R + 1 + R + i) _)) by lia. f_equal. lia.
  - exists (G + 1, 0). split; [reflexivity|]. split; [|reflexivity]. apply vread; [reflexivity|repeat constructor|lia|lia].
  - exists (G + 3, 0). split; [reflexivity|]. split; [|split; [apply blocks_aligned|split; [exact Lb|exact Sb]]]. apply vread; [reflexivity|exact Bb|lia|lia].
  - exists (G + 5, 0). split; [reflexivity|]. split; [|exact Sm]. apply vread; [reflexivity|exact Bm|lia|lia].
  - intros k e Hk He. fold T in Hk. cbn [receive_start pv]. rewrite upd_eq. rewrite nth_map_seq by nia. unfold part_at. rewrite Nat.add_assoc. reflexivity.
  - split; [reflexivity|]. split; [reflexivity|]. intros k Hk. fold T in Hk.
    assert (D2 : forall e, e < 2 -> (2 * k + e) / 2 = k /\ (2 * k + e) mod 2 = e) by (intros e He; split; [symmetry; apply (Nat.div_unique (2 * k + e) 2 k e); lia|symmetry; apply (Nat.mod_unique (2 * k + e) 2 k e); lia]).
    cbn [receive_start pv]. rewrite !upd_neq by discriminate. cbn [v verify_start pv args nth]. split.
    + intros e He. rewrite kept_part by lia. unfold v. cbn [verify_start pv args nth]. rewrite nth_cells by (fold T; lia). destruct (D2 e He) as [-> ->]. reflexivity.
    + unfold v. cbn [verify_start pv args nth]. rewrite !kept_part by lia. rewrite !nth_cells by exact Hk. split; [reflexivity|]. split; [reflexivity|]. split; [reflexivity|]. intros Hu. rewrite kept_part by (unfold parts; rewrite Hu; lia). reflexivity.
Qed.
Lemma receive_ends : length (mm receive_start (fst (nx v, 0))) = snd (nx v, 0) + length sg.
Proof. cbn [receive_start mm fst snd]. rewrite upd_eq. reflexivity. Qed.
End V.

(** Every key, every message below 4 GiB, every string. *)
Lemma receive_any E P pk msg sg : get_param_set (pk_params pk) = Some P -> is_picnic3 (pk_params pk) = false -> pk_params pk <> Picnic_L1_full ->
  pk_wf pk -> bytes_ok msg -> short msg -> bytes_ok sg -> env_bytes_ok E -> constants_ok E P ->
  let pt := firstn (4 * stateSizeWords P) (pk_plaintext pk) in
  exists ps, received_call P E (receive_start E P sg (pk_ciphertext pk) pt msg) (at_block P) (kept P) ps sg (pk_ciphertext pk) pt msg /\
    length (mm (receive_start E P sg (pk_ciphertext pk) pt msg) (fst ps)) = snd ps + length sg.
Proof.
  intros HP Hp Hf ([L1 B1] & [L2 B2]) Bm Sm Bs HE HC. pose proof (get_param_set_wfP _ P HP) as HW. destruct (wfP_block P HW) as [W1 W2]. pose proof (wf_W3 P HW) as W3.
  assert (L1' : length (pk_plaintext pk) = 32) by exact L1. assert (L2' : length (pk_ciphertext pk) = 32) by exact L2.
  cbv zeta. eexists. split; [|apply receive_ends]. apply receive_start_call; auto.
  - exact (zkb_block_sizes _ P HP Hp Hf).
  - apply Forall_firstn, B1.
  - rewrite firstn_length, L1'. lia.
  - rewrite L2'. lia.
  - unfold short. rewrite L2'. lia.
Qed.
