(** Property theorems: the functions that hash, on memory. *)

From Coq Require Import List NArith Arith Bool Lia.
From Verif Require Import Base Params Env Spec MiniC CodeLowMC CodeKeccak CodeSpec Keccak KeccakSpec HashSpec CodeKeccakSpec CodeHashUses CodeHashUsesSpec Tree Picnic1 Picnic3.
From Verif Require Import CodeWitness CodeHashUsesTop CodeHashUsesWitness.
Import ListNotations.

(** C73: for every memory, every content of uninitialised local arrays and every parameter set: the functions of signing and verification that hash
    run on memory without undefined behaviour, leave at the output what the functions on lists compute with SHAKE (and the statements spell out the string
    that is hashed), change nothing else, and no hash function reports an error. Deriving the seeds of ZKB++. *)
Theorem C73_computeSeeds_code : forall U, locals_ok U -> forall E P st qr p sk message pk pt,
  let n := seedSizeBytes P * (numMPCParties P * numMPCRounds P) + saltSizeBytes P in
  constants st qr -> room_at st qr 7 0 p n ->
  holds st 3 0 (stateSizeBytes P) sk -> holds st 4 0 (length message) message -> holds st 5 0 (stateSizeBytes P) pk -> holds st 6 0 (stateSizeBytes P) pt ->
  let k := firstn (stateSizeBytes P) in
  let d := shake (use_shake128 P) (k sk ++ message ++ k pk ++ k pt ++ intLE (stateSizeBits P)) n in
  computeSeeds (with_shake E) P sk pk pt message = Ok d /\ writes U (c_computeSeeds P (length message)) st p d.
Proof. exact computeSeeds_code. Qed.
Print Assumptions C73_computeSeeds_code.

(** Deriving salt and root seed of Picnic3. *)
Theorem C73_computeSaltAndRootSeed_code : forall U, locals_ok U -> forall E P st qr p n sk message pk pt,
  constants st qr -> room_at st qr 7 0 p n ->
  holds st 3 0 (stateSizeBytes P) sk -> holds st 4 0 (length message) message -> holds st 5 0 (stateSizeBytes P) pk -> holds st 6 0 (stateSizeBytes P) pt ->
  let k := firstn (stateSizeBytes P) in
  let d := shake (use_shake128 P) (k sk ++ message ++ k pk ++ k pt ++ intLE (stateSizeBits P)) n in
  computeSaltAndRootSeed (with_shake E) P n sk pk pt message = Ok d /\ writes U (c_derive P (length message) n) st p d.
Proof. exact derive_code. Qed.
Print Assumptions C73_computeSaltAndRootSeed_code.

(** Commitment to a view of ZKB++; the digest of the seed goes through the output buffer. *)
Theorem C73_Commit_code : forall U, locals_ok U -> forall E P st qr p seed v,
  constants st qr -> room_at st qr 5 0 p (digestSizeBytes P) -> holds st 3 0 (seedSizeBytes P) seed ->
  let off := holds_off p (digestSizeBytes P) st 4 in
  off 0 (stateSizeBytes P) (v_inputShare v) -> off 1 (andSizeBytes P) (v_communicatedBits v) -> off 2 (stateSizeBytes P) (v_outputShare v) ->
  let h := shake (use_shake128 P) (4%N :: firstn (seedSizeBytes P) seed) (digestSizeBytes P) in
  let d := shake (use_shake128 P) (0%N :: h ++ firstn (stateSizeBytes P) (v_inputShare v) ++ firstn (andSizeBytes P) (v_communicatedBits v) ++ firstn (stateSizeBytes P) (v_outputShare v)) (digestSizeBytes P) in
  Picnic1.Commit (with_shake E) P seed v = Ok d /\ writes U (c_Commit P) st p d.
Proof. exact Commit_code. Qed.
Print Assumptions C73_Commit_code.

(** Random tape of ZKB++, and the refusal of a tape that is too short. *)
Theorem C73_createRandomTape_code : forall U, locals_ok U -> forall E P st qr p seed salt r j n buf,
  digestSizeBytes P <= n -> constants st qr -> room_at st qr 5 0 p n -> holds st 3 0 (seedSizeBytes P) seed ->
  holds_off p n st 4 0 (saltSizeBytes P) salt -> n <= length buf ->
  let h := shake (use_shake128 P) (2%N :: firstn (seedSizeBytes P) seed) (digestSizeBytes P) in
  let d := shake (use_shake128 P) (h ++ firstn (saltSizeBytes P) salt ++ intLE r ++ intLE j ++ intLE n) n in
  createRandomTape (with_shake E) P seed salt r j buf n = Ok (true, d ++ skipn n buf) /\
  exists st' t, run U (c_createRandomTape P r j n) st = Some (st', t) /\ leaves st st' p d /\ iv st' 12 = 1.
Proof. exact createRandomTape_code. Qed.
Print Assumptions C73_createRandomTape_code.

Theorem C73_createRandomTape_short_code : forall U, locals_ok U -> forall E P st seed salt r j n buf,
  n < digestSizeBytes P ->
  createRandomTape (with_shake E) P seed salt r j buf n = Ok (false, buf) /\
  exists st' t, run U (c_createRandomTape P r j n) st = Some (st', t) /\ chg (nx st) (mm st) (mm st') [] /\ iv st' 12 = 0.
Proof. exact createRandomTape_short_code. Qed.
Print Assumptions C73_createRandomTape_short_code.

(** The function G of the Unruh transform. *)
Theorem C73_G_code : forall U, locals_ok U -> forall E P st qr p view seed v out,
  let n := G_bytes P view in digestSizeBytes P <= n -> constants st qr -> room_at st qr 5 0 p n -> holds st 3 0 (seedSizeBytes P) seed ->
  let off := holds_off p n st 4 in
  (view = 2 -> off 0 (stateSizeBytes P) (v_inputShare v)) -> off 1 (andSizeBytes P) (v_communicatedBits v) -> n <= length out ->
  let h := shake (use_shake128 P) (5%N :: firstn (seedSizeBytes P) seed) (digestSizeBytes P) in
  let d := shake (use_shake128 P) (h ++ (if view =? 2 then firstn (stateSizeBytes P) (v_inputShare v) else []) ++ firstn (andSizeBytes P) (v_communicatedBits v) ++ intLE n) n in
  Picnic1.G (with_shake E) P view seed v out = Ok (d ++ skipn n out) /\ writes U (c_G P view) st p d.
Proof. exact G_code. Qed.
Print Assumptions C73_G_code.

(** The hash of which the challenge of ZKB++ is made. *)
Theorem C73_H3_code : forall U, locals_ok U -> forall P st qr p vo ascm gs ct pt salt message,
  constants st qr -> room_at st qr 10 0 p (digestSizeBytes P) ->
  holds_triples st 3 (numMPCRounds P) (stateSizeBytes P) (stateSizeBytes P) vo -> holds_triples st 4 (numMPCRounds P) (digestSizeBytes P) (digestSizeBytes P) ascm ->
  (is_UR (transf P) = true -> holds_triples st 5 (numMPCRounds P) (UnruhGWithoutInputBytes P) (UnruhGWithInputBytes P) gs) ->
  holds st 6 0 (stateSizeBytes P) ct -> holds st 7 0 (stateSizeBytes P) pt -> holds st 8 0 (saltSizeBytes P) salt -> holds st 9 0 (length message) message ->
  exists chunks, H3_input P ct pt vo ascm salt message gs = Ok chunks /\
  writes U (c_H3_hash P (length message)) st p (shake (use_shake128 P) (1%N :: concat chunks) (digestSizeBytes P)).
Proof. exact H3_code. Qed.
Print Assumptions C73_H3_code.

(** Picnic3: commitment to a seed, to the commitments, to the views; the challenge hash. *)
Theorem C73_commit_code : forall U, locals_ok U -> forall E P st qr p seed aux salt t j,
  constants st qr -> room_at st qr 6 0 p (digestSizeBytes P) ->
  holds st 3 0 (seedSizeBytes P) seed -> match aux with Some a => holds st 4 0 (andSizeBytes P) a | None => True end -> holds st 5 0 (saltSizeBytes P) salt ->
  let d := shake (use_shake128 P) (firstn (seedSizeBytes P) seed ++ match aux with Some a => firstn (andSizeBytes P) a | None => [] end ++
    firstn (saltSizeBytes P) salt ++ intLE t ++ intLE j) (digestSizeBytes P) in
  commit (with_shake E) P seed aux salt t j = Ok d /\ writes U (c_commit P (match aux with Some _ => true | None => false end) t j) st p d.
Proof. exact commit_code. Qed.
Print Assumptions C73_commit_code.

Theorem C73_commit_h_code : forall U, locals_ok U -> forall E P st qr p C,
  constants st qr -> room_at st qr 4 0 p (digestSizeBytes P) -> holds_list st 3 (numMPCParties P) (digestSizeBytes P) C ->
  let d := shake (use_shake128 P) (concat (map (fun i => firstn (digestSizeBytes P) (nth i C [])) (seq 0 (numMPCParties P)))) (digestSizeBytes P) in
  commit_h (with_shake E) P C = Ok d /\ writes U (c_commit_h P) st p d.
Proof. exact commit_h_code. Qed.
Print Assumptions C73_commit_h_code.

Theorem C73_commit_v_code : forall U, locals_ok U -> forall E P st qr p input ms,
  constants st qr -> room_at st qr 5 0 p (digestSizeBytes P) -> holds st 3 0 (stateSizeBytes P) input ->
  holds_list st 4 (numMPCParties P) (numBytes (ms_pos ms)) (ms_msgs ms) ->
  let d := shake (use_shake128 P) (firstn (stateSizeBytes P) input ++ concat (map (fun i => firstn (numBytes (ms_pos ms)) (nth i (ms_msgs ms) [])) (seq 0 (numMPCParties P)))) (digestSizeBytes P) in
  commit_v (with_shake E) P input ms = Ok d /\ writes U (c_commit_v P (ms_pos ms)) st p d.
Proof. exact commit_v_code. Qed.
Print Assumptions C73_commit_v_code.

Theorem C73_HCP_code : forall U, locals_ok U -> forall E P st qr p Ch hCv salt pk pt message,
  numOpenedRounds P < numMPCRounds P -> constants st qr -> room_at st qr 9 0 p (digestSizeBytes P) ->
  holds_list st 3 (numMPCRounds P) (digestSizeBytes P) Ch -> holds st 4 0 (digestSizeBytes P) hCv -> holds st 5 0 (saltSizeBytes P) salt ->
  holds st 6 0 (stateSizeBytes P) pk -> holds st 7 0 (stateSizeBytes P) pt -> holds st 8 0 (length message) message ->
  let d := shake (use_shake128 P) (concat (map (fun i => firstn (digestSizeBytes P) (nth i Ch [])) (seq 0 (numMPCRounds P))) ++ firstn (digestSizeBytes P) hCv ++
    firstn (saltSizeBytes P) salt ++ firstn (stateSizeBytes P) pk ++ firstn (stateSizeBytes P) pt ++ message) (digestSizeBytes P) in
  HCP_hash (with_shake E) P Ch hCv salt pk pt message = Ok d /\ writes U (c_HCP_hash P (length message)) st p d.
Proof. exact HCP_code. Qed.
Print Assumptions C73_HCP_code.

(** Random tapes of Picnic3, one for each party. *)
Theorem C73_createRandomTapes_code : forall U, locals_ok U -> forall E P st qr seeds salt t out,
  let N := numMPCParties P in let n := p3_tapeSize P in constants st qr ->
  (forall i, i < N -> room_at st qr 5 i (out i) n) -> (forall i j, i < N -> j < N -> i <> j -> disj (out i) n (out j) n) ->
  (forall i, i < N -> exists seed, nth_error seeds i = Some seed /\ forall j, j < N -> holds_off (out j) n st 3 i (seedSizeBytes P) seed) ->
  saltSizeBytes P <= length salt -> (forall j, j < N -> holds_off (out j) n st 4 0 (saltSizeBytes P) salt) ->
  let d i := shake (use_shake128 P) (firstn (seedSizeBytes P) (nth i seeds []) ++ firstn (saltSizeBytes P) salt ++ intLE t ++ intLE i) n in
  createRandomTapes (with_shake E) P seeds salt t = Ok (mkTapes (map d (seq 0 N)) 0) /\
  exists st' tr, run U (c_createRandomTapes P t n) st = Some (st', tr) /\ (forall i, i < N -> pts (nx st) (mm st') (out i) (d i)) /\
    chg (nx st) (mm st) (mm st') (map (fun i => (out i, n)) (seq 0 N)) /\
    iv st' 11 = iv st 11 /\ dv st' = dv st /\ (forall a, pv st' a = pv st a) /\ nx st' = nx st.
Proof. exact createRandomTapes_code. Qed.
Print Assumptions C73_createRandomTapes_code.

(** The trees: children of a seed, parent of two hashes. *)
Theorem C73_hashSeed_code : forall U, locals_ok U -> forall E P prefix st qr p seed salt rep node,
  match prefix with Some x => byte x | None => True end -> constants st qr -> room_at st qr 5 0 p (2 * seedSizeBytes P) ->
  holds st 3 0 (seedSizeBytes P) seed -> holds st 4 0 (saltSizeBytes P) salt ->
  let d := shake (use_shake128 P) (prefix_bytes prefix ++ firstn (seedSizeBytes P) seed ++ firstn (saltSizeBytes P) salt ++ intLE rep ++ intLE node) (2 * seedSizeBytes P) in
  hashSeed (with_shake E) P seed salt prefix rep node = Ok d /\ writes U (c_hashSeed P prefix rep node) st p d.
Proof. exact hashSeed_code. Qed.
Print Assumptions C73_hashSeed_code.

Theorem C73_parentHash_code : forall U, locals_ok U -> forall E P st qr p hasRight parent left right salt,
  constants st qr -> room_at st qr 3 parent p (digestSizeBytes P) ->
  holds st 3 (2 * parent + 1) (digestSizeBytes P) left -> (hasRight = true -> holds st 3 (2 * parent + 2) (digestSizeBytes P) right) -> holds st 4 0 (saltSizeBytes P) salt ->
  let k := firstn (digestSizeBytes P) in
  let d := shake (use_shake128 P) (3%N :: k left ++ (if hasRight then k right else []) ++ firstn (saltSizeBytes P) salt ++ intLE parent) (digestSizeBytes P) in
  hash (with_shake E) P HASH_PREFIX_3 [k left; if hasRight then k right else []; firstn (saltSizeBytes P) salt; intLE parent] (digestSizeBytes P) = d /\
  writes U (c_parentHash P hasRight parent) st p d.
Proof. exact parentHash_code. Qed.
Print Assumptions C73_parentHash_code.

(** C74: what is observed of a run of these functions does not depend on the data: not on seeds, keys, views, tapes, messages or uninitialised arrays. *)
Theorem C74_hashing_constant_time : forall U U' P s x y, locals_ok U -> locals_ok U' -> hashes P s -> same_public x y -> observed (run U s x) = observed (run U' s y).
Proof. exact hashes_constant_time. Qed.
Print Assumptions C74_hashing_constant_time.

(** The hypotheses hold in a memory with blocks of 11000 bytes: for the Unruh variant of ZKB++ at level 1, and for Picnic3 at level 1. *)
Example C73_zkbpp_example : exists P, get_param_set Picnic_L1_UR = Some P /\ is_UR (transf P) = true /\
  constants st1 (0, 0) /\
  room_at st1 (0, 0) 7 0 (7, 0) (seedSizeBytes P * (numMPCParties P * numMPCRounds P) + saltSizeBytes P) /\
  (holds st1 3 0 (stateSizeBytes P) (demo_data 77 3) /\ holds st1 4 0 (length (demo_data 77 4)) (demo_data 77 4) /\
   holds st1 5 0 (stateSizeBytes P) (demo_data 77 5) /\ holds st1 6 0 (stateSizeBytes P) (demo_data 77 6)) /\
  (room_at st1 (0, 0) 5 0 (5, 0) (digestSizeBytes P) /\ holds st1 3 0 (seedSizeBytes P) (demo_data 77 3) /\
   holds_off (5, 0) (digestSizeBytes P) st1 4 0 (stateSizeBytes P) (v_inputShare demo_view) /\ holds_off (5, 0) (digestSizeBytes P) st1 4 1 (andSizeBytes P) (v_communicatedBits demo_view) /\
   holds_off (5, 0) (digestSizeBytes P) st1 4 2 (stateSizeBytes P) (v_outputShare demo_view)) /\
  (digestSizeBytes P <= 100 /\ 20 < digestSizeBytes P /\ room_at st1 (0, 0) 5 0 (5, 0) 100 /\ holds_off (5, 0) 100 st1 4 0 (saltSizeBytes P) (demo_data 77 4)) /\
  (digestSizeBytes P <= G_bytes P 2 /\ room_at st1 (0, 0) 5 0 (5, 0) (G_bytes P 2) /\ holds_off (5, 0) (G_bytes P 2) st1 4 0 (stateSizeBytes P) (v_inputShare demo_view) /\
   holds_off (5, 0) (G_bytes P 2) st1 4 1 (andSizeBytes P) (v_communicatedBits demo_view)) /\
  (room_at st1 (0, 0) 10 0 (10, 0) (digestSizeBytes P) /\ holds_triples st1 3 (numMPCRounds P) (stateSizeBytes P) (stateSizeBytes P) demo_triples /\
   holds st1 8 0 (saltSizeBytes P) (demo_data 77 8) /\ holds st1 9 0 (length (demo_data 77 9)) (demo_data 77 9)).
Proof.
  eexists. split; [reflexivity|]. split; [reflexivity|]. split; [demo|]. split; [demo|].
  split; [demos|]. split; [demos|]. split; [split; [small|split; [small|demos]]|]. split; [split; [small|demos]|].
  split; [demo|]. split; [|demos].
  intros i Hi. exists (demo_data 77 3), (demo_data 77 3), (demo_data 77 3). split.
  - unfold demo_triples. change (numMPCRounds _) with 219 in Hi. rewrite (nth_error_nth' _ (demo_data 77 3, demo_data 77 3, demo_data 77 3)) by (rewrite repeat_length; exact Hi). rewrite nth_repeat. reflexivity.
  - change (numMPCRounds _) with 219 in Hi. split; [|split]; apply demo_holds; try reflexivity; try lia; small.
Qed.

Example C73_picnic3_example : exists P, get_param_set Picnic3_L1 = Some P /\ numOpenedRounds P < numMPCRounds P /\
  constants st1 (0, 0) /\
  (room_at st1 (0, 0) 6 0 (6, 0) (digestSizeBytes P) /\ holds st1 3 0 (seedSizeBytes P) (demo_data 77 3) /\ holds st1 4 0 (andSizeBytes P) (demo_data 77 4) /\ holds st1 5 0 (saltSizeBytes P) (demo_data 77 5)) /\
  (room_at st1 (0, 0) 4 0 (4, 0) (digestSizeBytes P) /\ holds_list st1 3 (numMPCParties P) (digestSizeBytes P) (repeat (demo_data 77 3) 16)) /\
  (room_at st1 (0, 0) 5 0 (5, 0) (digestSizeBytes P) /\ holds st1 3 0 (stateSizeBytes P) (demo_data 77 3) /\ holds_list st1 4 (numMPCParties P) (numBytes 516) (repeat (demo_data 77 4) 16)) /\
  (room_at st1 (0, 0) 9 0 (9, 0) (digestSizeBytes P) /\ holds_list st1 3 (numMPCRounds P) (digestSizeBytes P) (repeat (demo_data 77 3) 250) /\ holds st1 4 0 (digestSizeBytes P) (demo_data 77 4) /\
   holds st1 6 0 (stateSizeBytes P) (demo_data 77 6) /\ holds st1 7 0 (stateSizeBytes P) (demo_data 77 7) /\ holds st1 8 0 (length (demo_data 77 8)) (demo_data 77 8)) /\
  (room_at st1 (0, 0) 5 0 (5, 0) (2 * seedSizeBytes P) /\ holds st1 4 0 (saltSizeBytes P) (demo_data 77 4)) /\
  (room_at st1 (0, 0) 3 6 (3, 0) (digestSizeBytes P) /\ holds st1 3 13 (digestSizeBytes P) (demo_data 77 3) /\ holds st1 3 14 (digestSizeBytes P) (demo_data 77 3)) /\
  (let st := demo (map (fun i => (5, 200 * i)) (seq 0 16)) in let out i := (5, 200 * i) in
   (forall i, i < numMPCParties P -> room_at st (0, 0) 5 i (out i) (p3_tapeSize P)) /\
   (forall i j, i < numMPCParties P -> j < numMPCParties P -> i <> j -> disj (out i) (p3_tapeSize P) (out j) (p3_tapeSize P)) /\
   (forall i, i < numMPCParties P -> exists seed, nth_error (repeat (demo_data 77 3) 16) i = Some seed /\ forall j, j < numMPCParties P -> holds_off (out j) (p3_tapeSize P) st 3 i (seedSizeBytes P) seed) /\
   (forall j, j < numMPCParties P -> holds_off (out j) (p3_tapeSize P) st 4 0 (saltSizeBytes P) (demo_data 77 4))) /\
  same_public (demo_state 77 (same_block 5)) (demo_state 200 (same_block 5)).
Proof.
  assert (R : forall (x : bytes) k i, i < k -> nth_error (repeat x k) i = Some x).
  { intros x k i Hi. rewrite (nth_error_nth' _ x) by (rewrite repeat_length; exact Hi). rewrite nth_repeat. reflexivity. }
  eexists. split; [reflexivity|]. split; [cbn; lia|]. split; [demo|]. split; [demos|].
  split; [split; [demo|]; intros i Hi; exists (demo_data 77 3); split; [apply R; exact Hi|change (numMPCParties _) with 16 in Hi; apply demo_holds; try reflexivity; try lia; try small; intros; reflexivity]|].
  split; [split; [demo|]; split; [demo|]; intros i Hi; exists (demo_data 77 4); split; [apply R; exact Hi|change (numMPCParties _) with 16 in Hi; apply demo_holds; try reflexivity; try lia; try small; intros; reflexivity]|].
  split; [split; [demo|]; split; [intros i Hi; exists (demo_data 77 3); split; [apply R; exact Hi|change (numMPCRounds _) with 250 in Hi; apply demo_holds; try reflexivity; try lia; try small; intros; reflexivity]|demos]|].
  split; [demos|]. split; [demos|]. change (p3_tapeSize _) with 130. change (numMPCParties _) with 16. split; [cbv zeta; split; [|split; [|split]]|].
  - intros i Hi. split; [unfold demo, demo_state; cbn [pv]; rewrite nth_error_map; rewrite (nth_error_nth' _ 0) by (rewrite seq_length; exact Hi); rewrite seq_nth by exact Hi; reflexivity|].
    split; [apply demo_part; [lia|]|left; cbn; lia]. apply Nat.le_trans with (200 * 15 + 130); [lia|small].
  - intros i j Hi Hj Hij. unfold disj. cbn [fst snd]. lia.
  - intros i Hi. exists (demo_data 77 3). split; [apply R; exact Hi|]. intros j Hj. apply demo_off; try reflexivity; try lia; try small; discriminate.
  - intros j Hj. apply demo_off; try reflexivity; try lia; try small; discriminate.
  - repeat (split; [reflexivity|]). intros k. do 11 (destruct k as [|k]; [cbn [demo_state mm demo_memory]; rewrite ?repeat_length; reflexivity|]). cbn [demo_state mm demo_memory]. reflexivity.
Qed.
