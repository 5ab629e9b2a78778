(** The functions that hash, on memory, compared with the functions on lists. *)

From Coq Require Import List NArith Arith Bool Lia ZifyBool ZifyNat ZifyN.
From Verif Require Import Base Params Env Spec MiniC CodeLowMC CodeKeccak CodeSpec Keccak KeccakSpec HashSpec CodeKeccakSpec CodeHashUses CodeHashUsesSpec Tree Picnic1 Picnic3.
From Verif Require Import BaseFacts KeccakPerm KeccakSponge KeccakProofs HashProofs MiniCFacts CodeRules CodeLowMCProofs CodeHeap CodeLanes CodeKeccakProofs CodeHashProofs CodeHashUsesProofs.
Import ListNotations.

Lemma skipn2 {A} a b (l : list A) : skipn a (skipn b l) = skipn (b + a) l.
Proof. revert l. induction b as [|b IH]; intros l; [reflexivity|]. destruct l as [|x l]; [rewrite !skipn_nil; reflexivity|apply IH]. Qed.

Section M.
Variable U : nat -> nat -> bytes.
Hypothesis HU : locals_ok U.
Variables (E : env) (P : paramset).
Notation Es := (with_shake E).
Notation b := (use_shake128 P).

Lemma holds_len st a i n l : holds st a i n l -> n <= length l.
Proof. intros (p & _ & _ & _ & L & _). exact L. Qed.
Lemma off_len q k st a i n l : holds_off q k st a i n l -> n <= length l.
Proof. intros H. eapply holds_len, holds_off_holds. exact H. Qed.

Ltac its := repeat (apply Forall2_app || apply Forall2_nil || apply Forall2_cons); try reflexivity; try (apply item_holds; [discriminate|assumption|assumption]).
Ltac slices := repeat (rewrite slice0_ok by (first [eapply holds_len; eassumption | eapply off_len; eassumption]); cbn [bind]).

Lemma derive_code st qr p n sk message pk pt : constants st qr -> room_at st qr 7 0 p n ->
  holds st 3 0 (stateSizeBytes P) sk -> holds st 4 0 (length message) message -> holds st 5 0 (stateSizeBytes P) pk -> holds st 6 0 (stateSizeBytes P) pt ->
  let k := firstn (stateSizeBytes P) in
  let d := shake b (k sk ++ message ++ k pk ++ k pt ++ intLE (stateSizeBits P)) n in
  computeSaltAndRootSeed Es P n sk pk pt message = Ok d /\ writes U (c_derive P (length message) n) st p d.
Proof.
  intros Hc Hp H3 H4 H5 H6 k d. set (cs := [k sk; firstn (length message) message; k pk; k pt; intLE (stateSizeBits P)]).
  assert (X : concat cs = k sk ++ message ++ k pk ++ k pt ++ intLE (stateSizeBits P)) by (unfold cs; cbn [concat]; rewrite firstn_all, app_nil_r; reflexivity).
  split.
  - unfold computeSaltAndRootSeed. slices. unfold hash, d. cbn [prefix_bytes HASH_PREFIX_NONE concat]. rewrite app_nil_r. reflexivity.
  - unfold d. rewrite <- X. apply (single U HU P None st qr _ cs); auto; try discriminate. intros z Hz. unfold cs. its.
Qed.

Lemma computeSeeds_code st qr p sk message pk pt : let n := seedSizeBytes P * (numMPCParties P * numMPCRounds P) + saltSizeBytes P in
  constants st qr -> room_at st qr 7 0 p n ->
  holds st 3 0 (stateSizeBytes P) sk -> holds st 4 0 (length message) message -> holds st 5 0 (stateSizeBytes P) pk -> holds st 6 0 (stateSizeBytes P) pt ->
  let k := firstn (stateSizeBytes P) in
  let d := shake b (k sk ++ message ++ k pk ++ k pt ++ intLE (stateSizeBits P)) n in
  computeSeeds Es P sk pk pt message = Ok d /\ writes U (c_computeSeeds P (length message)) st p d.
Proof. intros n Hc Hp H3 H4 H5 H6 k d. exact (derive_code st qr p n sk message pk pt Hc Hp H3 H4 H5 H6). Qed.

Lemma commit_code st qr p seed aux salt t j : constants st qr -> room_at st qr 6 0 p (digestSizeBytes P) ->
  holds st 3 0 (seedSizeBytes P) seed -> match aux with Some a => holds st 4 0 (andSizeBytes P) a | None => True end -> holds st 5 0 (saltSizeBytes P) salt ->
  let d := shake b (firstn (seedSizeBytes P) seed ++ match aux with Some a => firstn (andSizeBytes P) a | None => [] end ++
    firstn (saltSizeBytes P) salt ++ intLE t ++ intLE j) (digestSizeBytes P) in
  commit Es P seed aux salt t j = Ok d /\ writes U (c_commit P (match aux with Some _ => true | None => false end) t j) st p d.
Proof.
  intros Hc Hp H3 H4 H5 d. unfold commit. split.
  - slices. destruct aux as [a|]; cbn [bind]; slices; unfold hash, d; cbn [prefix_bytes HASH_PREFIX_NONE concat app]; rewrite app_nil_r; reflexivity.
  - set (cs := [firstn (seedSizeBytes P) seed] ++ match aux with Some a => [firstn (andSizeBytes P) a] | None => [] end ++ [firstn (saltSizeBytes P) salt; intLE t; intLE j]).
    assert (X : d = shake b (prefix_bytes None ++ concat cs) (digestSizeBytes P)).
    { unfold d, cs. f_equal. destruct aux; cbn [prefix_bytes concat app]; rewrite app_nil_r; reflexivity. }
    rewrite X. apply (single U HU P None st qr _ cs); auto; try discriminate. intros z Hz. unfold cs. destruct aux; cbn [app]; its.
Qed.

Lemma hashSeed_code prefix st qr p seed salt rep node : match prefix with Some x => byte x | None => True end -> constants st qr -> room_at st qr 5 0 p (2 * seedSizeBytes P) ->
  holds st 3 0 (seedSizeBytes P) seed -> holds st 4 0 (saltSizeBytes P) salt ->
  let d := shake b (prefix_bytes prefix ++ firstn (seedSizeBytes P) seed ++ firstn (saltSizeBytes P) salt ++ intLE rep ++ intLE node) (2 * seedSizeBytes P) in
  hashSeed Es P seed salt prefix rep node = Ok d /\ writes U (c_hashSeed P prefix rep node) st p d.
Proof.
  intros Hb Hc Hp H3 H4 d. set (cs := [firstn (seedSizeBytes P) seed; firstn (saltSizeBytes P) salt; intLE rep; intLE node]).
  assert (X : d = shake b (prefix_bytes prefix ++ concat cs) (2 * seedSizeBytes P)) by (unfold d, cs; cbn [concat]; rewrite app_nil_r; reflexivity).
  split; [unfold hashSeed; slices; rewrite X; reflexivity|]. rewrite X. apply (single U HU P prefix st qr _ cs); auto; try discriminate. intros z Hz. unfold cs. its.
Qed.

Lemma parentHash_code st qr p hasRight parent left right salt : constants st qr -> room_at st qr 3 parent p (digestSizeBytes P) ->
  holds st 3 (2 * parent + 1) (digestSizeBytes P) left -> (hasRight = true -> holds st 3 (2 * parent + 2) (digestSizeBytes P) right) -> holds st 4 0 (saltSizeBytes P) salt ->
  let k := firstn (digestSizeBytes P) in
  let d := shake b (3%N :: k left ++ (if hasRight then k right else []) ++ firstn (saltSizeBytes P) salt ++ intLE parent) (digestSizeBytes P) in
  hash Es P HASH_PREFIX_3 [k left; if hasRight then k right else []; firstn (saltSizeBytes P) salt; intLE parent] (digestSizeBytes P) = d /\
  writes U (c_parentHash P hasRight parent) st p d.
Proof.
  intros Hc Hp H3 H4 H5 k d. set (cs := [k left] ++ (if hasRight then [k right] else []) ++ [firstn (saltSizeBytes P) salt; intLE parent]).
  assert (X : d = shake b (prefix_bytes HASH_PREFIX_3 ++ concat cs) (digestSizeBytes P)).
  { unfold d, cs. f_equal. destruct hasRight; cbn [prefix_bytes HASH_PREFIX_3 concat app]; rewrite app_nil_r; reflexivity. }
  split. { unfold hash, d. cbn [prefix_bytes HASH_PREFIX_3 concat app]. rewrite app_nil_r. reflexivity. }
  rewrite X. apply (single U HU P HASH_PREFIX_3 st qr _ cs); auto; try discriminate; try reflexivity. intros z Hz. unfold cs. destruct hasRight; [specialize (H4 eq_refl)|]; cbn [app]; its.
Qed.

(** Lists. *)
Definition pick (n : nat) (l : list bytes) (i : nat) : bytes := firstn n (nth i l []).
Lemma items_list st z a cnt n l : a <> 1 -> (forall p l, pts (nx st) (mm st) p l -> pts (S (nx st)) (mm z) p l) -> holds_list st a cnt n l ->
  Forall2 (item_in st z) (entries a cnt n) (map (pick n l) (seq 0 cnt)).
Proof.
  intros Ha Hz H. unfold entries. assert (G : forall i, In i (seq 0 cnt) -> i < cnt) by (intros i Hi; apply in_seq in Hi; lia).
  induction (seq 0 cnt) as [|i s IH]; constructor.
  - destruct (H i (G i (or_introl eq_refl))) as (x & Hx & Hh). unfold pick. rewrite (nth_error_nth _ _ _ Hx). apply item_holds; assumption.
  - apply IH. intros j Hj. apply G. right. exact Hj.
Qed.
Lemma slices_list st a cnt n l : holds_list st a cnt n l -> mapM_seq cnt 0 (fun i => x <- rd l i ;; slice x 0 n) = Ok (map (pick n l) (seq 0 cnt)).
Proof.
  intros H. apply mapM_seq_pure. intros i Hi. destruct (H i ltac:(lia)) as (x & Hx & Hh). unfold rd. rewrite Hx. cbn [bind].
  rewrite slice0_ok by (eapply holds_len; exact Hh). unfold pick. rewrite (nth_error_nth _ _ _ Hx). reflexivity.
Qed.

Lemma commit_h_code st qr p C : constants st qr -> room_at st qr 4 0 p (digestSizeBytes P) -> holds_list st 3 (numMPCParties P) (digestSizeBytes P) C ->
  let d := shake b (concat (map (fun i => firstn (digestSizeBytes P) (nth i C [])) (seq 0 (numMPCParties P)))) (digestSizeBytes P) in
  commit_h Es P C = Ok d /\ writes U (c_commit_h P) st p d.
Proof.
  intros Hc Hp H3 d. split; [unfold commit_h; rewrite (slices_list _ _ _ _ _ H3); reflexivity|].
  apply (single U HU P None st qr _ (map (pick (digestSizeBytes P) C) (seq 0 (numMPCParties P)))); auto; try discriminate. intros z Hz. apply items_list; auto.
Qed.

Lemma commit_v_code st qr p input ms : constants st qr -> room_at st qr 5 0 p (digestSizeBytes P) -> holds st 3 0 (stateSizeBytes P) input ->
  holds_list st 4 (numMPCParties P) (numBytes (ms_pos ms)) (ms_msgs ms) ->
  let d := shake b (firstn (stateSizeBytes P) input ++ concat (map (fun i => firstn (numBytes (ms_pos ms)) (nth i (ms_msgs ms) [])) (seq 0 (numMPCParties P)))) (digestSizeBytes P) in
  commit_v Es P input ms = Ok d /\ writes U (c_commit_v P (ms_pos ms)) st p d.
Proof.
  intros Hc Hp H3 H4 d. split; [unfold commit_v; slices; rewrite (slices_list _ _ _ _ _ H4); reflexivity|].
  apply (single U HU P None st qr _ (firstn (stateSizeBytes P) input :: map (pick (numBytes (ms_pos ms)) (ms_msgs ms)) (seq 0 (numMPCParties P)))); auto; try discriminate.
  intros z Hz. constructor; [apply item_holds; auto; discriminate|]. apply items_list; auto.
Qed.

Lemma HCP_code st qr p Ch hCv salt pk pt message : numOpenedRounds P < numMPCRounds P -> constants st qr -> room_at st qr 9 0 p (digestSizeBytes P) ->
  holds_list st 3 (numMPCRounds P) (digestSizeBytes P) Ch -> holds st 4 0 (digestSizeBytes P) hCv -> holds st 5 0 (saltSizeBytes P) salt ->
  holds st 6 0 (stateSizeBytes P) pk -> holds st 7 0 (stateSizeBytes P) pt -> holds st 8 0 (length message) message ->
  let d := shake b (concat (map (fun i => firstn (digestSizeBytes P) (nth i Ch [])) (seq 0 (numMPCRounds P))) ++ firstn (digestSizeBytes P) hCv ++
    firstn (saltSizeBytes P) salt ++ firstn (stateSizeBytes P) pk ++ firstn (stateSizeBytes P) pt ++ message) (digestSizeBytes P) in
  HCP_hash Es P Ch hCv salt pk pt message = Ok d /\ writes U (c_HCP_hash P (length message)) st p d.
Proof.
  intros Ho Hc Hp H3 H4 H5 H6 H7 H8 d.
  set (cs := map (pick (digestSizeBytes P) Ch) (seq 0 (numMPCRounds P)) ++
    [firstn (digestSizeBytes P) hCv; firstn (saltSizeBytes P) salt; firstn (stateSizeBytes P) pk; firstn (stateSizeBytes P) pt; firstn (length message) message]).
  assert (X : d = shake b (prefix_bytes None ++ concat cs) (digestSizeBytes P)).
  { unfold d, cs. f_equal. cbn [prefix_bytes app]. rewrite concat_app. cbn [concat]. rewrite app_nil_r, firstn_all. reflexivity. }
  split.
  - unfold HCP_hash, c_assert. rewrite (proj2 (Nat.ltb_lt _ _) Ho). cbn [bind]. rewrite (slices_list _ _ _ _ _ H3). cbn [bind]. slices. rewrite X. unfold cs. rewrite firstn_all. reflexivity.
  - rewrite X. apply (single U HU P None st qr _ cs); auto; try discriminate. intros z Hz. unfold cs. apply Forall2_app; [apply items_list; auto|its].
Qed.

(** Triples. *)
Definition pick3 (n n' : nat) (l : list (bytes * bytes * bytes)) (i : nat) : list bytes :=
  let '(x, y, z) := nth i l ([], [], []) in [firstn n x; firstn n y; firstn n' z].
Lemma items_triples st z a cnt n n' l : a <> 1 -> (forall p l, pts (nx st) (mm st) p l -> pts (S (nx st)) (mm z) p l) -> holds_triples st a cnt n n' l ->
  Forall2 (item_in st z) (triples a cnt n n') (flat_map (pick3 n n' l) (seq 0 cnt)).
Proof.
  intros Ha Hz H. unfold triples. assert (G : forall i, In i (seq 0 cnt) -> i < cnt) by (intros i Hi; apply in_seq in Hi; lia).
  induction (seq 0 cnt) as [|i s IH]; [constructor|]. cbn [flat_map]. apply Forall2_app.
  - destruct (H i (G i (or_introl eq_refl))) as (x & y & w & Hx & H0 & H1 & H2). unfold pick3. rewrite (nth_error_nth _ _ _ Hx). repeat (apply Forall2_cons || apply Forall2_nil); apply item_holds; assumption.
  - apply IH. intros j Hj. apply G. right. exact Hj.
Qed.
Lemma slices_triples st a cnt n n' l (f : bytes * bytes * bytes -> res bytes) :
  (forall x y z, f (x, y, z) = (x <- slice x 0 n ;; y <- slice y 0 n ;; z <- slice z 0 n' ;; Ok (x ++ y ++ z))) ->
  holds_triples st a cnt n n' l -> mapM_seq cnt 0 (fun i => t <- rd l i ;; f t) = Ok (map (fun i => concat (pick3 n n' l i)) (seq 0 cnt)).
Proof.
  intros Hf H. apply mapM_seq_pure. intros i Hi. destruct (H i ltac:(lia)) as (x & y & z & Hx & H0 & H1 & H2). unfold rd. rewrite Hx. cbn [bind].
  rewrite Hf. slices. unfold pick3. rewrite (nth_error_nth _ _ _ Hx). cbn [concat]. rewrite app_nil_r. reflexivity.
Qed.
Lemma concat_flat_map {A} (f : A -> list bytes) l : concat (flat_map f l) = concat (map (fun x => concat (f x)) l).
Proof. induction l as [|x l IH]; [reflexivity|]. cbn [flat_map map concat]. rewrite concat_app, IH. reflexivity. Qed.

Lemma H3_code st qr p vo ascm gs ct pt salt message : constants st qr -> room_at st qr 10 0 p (digestSizeBytes P) ->
  holds_triples st 3 (numMPCRounds P) (stateSizeBytes P) (stateSizeBytes P) vo -> holds_triples st 4 (numMPCRounds P) (digestSizeBytes P) (digestSizeBytes P) ascm ->
  (is_UR (transf P) = true -> holds_triples st 5 (numMPCRounds P) (UnruhGWithoutInputBytes P) (UnruhGWithInputBytes P) gs) ->
  holds st 6 0 (stateSizeBytes P) ct -> holds st 7 0 (stateSizeBytes P) pt -> holds st 8 0 (saltSizeBytes P) salt -> holds st 9 0 (length message) message ->
  exists chunks, H3_input P ct pt vo ascm salt message gs = Ok chunks /\
  writes U (c_H3_hash P (length message)) st p (shake b (1%N :: concat chunks) (digestSizeBytes P)).
Proof.
  intros Hc Hp H3 H4 H5 H6 H7 H8 H9. unfold H3_input.
  rewrite (slices_triples _ _ _ _ _ _ _ (fun _ _ _ => eq_refl) H3). cbn [bind].
  rewrite (slices_triples _ _ _ _ _ _ _ (fun _ _ _ => eq_refl) H4). cbn [bind].
  set (n := stateSizeBytes P) in *. set (T := numMPCRounds P) in *.
  set (gc := if is_UR (transf P) then flat_map (pick3 (UnruhGWithoutInputBytes P) (UnruhGWithInputBytes P) gs) (seq 0 T) else []).
  set (cs := flat_map (pick3 n n vo) (seq 0 T) ++ flat_map (pick3 (digestSizeBytes P) (digestSizeBytes P) ascm) (seq 0 T) ++ gc ++ [firstn n ct; firstn n pt; firstn (saltSizeBytes P) salt; firstn (length message) message]).
  assert (W : writes U (c_H3_hash P (length message)) st p (shake b (prefix_bytes HASH_PREFIX_1 ++ concat cs) (digestSizeBytes P))).
  { apply (single U HU P HASH_PREFIX_1 st qr _ cs); auto; try discriminate; try reflexivity. intros z Hz. unfold cs, gc.
    apply Forall2_app; [apply items_triples; auto; discriminate|]. apply Forall2_app; [apply items_triples; auto; discriminate|]. apply Forall2_app; [|its].
    destruct (is_UR (transf P)); [apply items_triples; auto; discriminate|constructor]. }
  assert (F : forall gc', concat gc' = concat gc -> concat (map (fun i => concat (pick3 n n vo i)) (seq 0 T) ++
     map (fun i => concat (pick3 (digestSizeBytes P) (digestSizeBytes P) ascm i)) (seq 0 T) ++ gc' ++ [firstn n ct; firstn n pt; firstn (saltSizeBytes P) salt; message]) = concat cs).
  { intros gc' Hg. unfold cs. rewrite !concat_app, Hg, firstn_all.
    rewrite <- (concat_flat_map (pick3 n n vo)), <- (concat_flat_map (pick3 (digestSizeBytes P) (digestSizeBytes P) ascm)). reflexivity. }
  destruct (is_UR (transf P)) eqn:Ur.
  - rewrite (slices_triples _ _ _ _ _ _ _ (fun _ _ _ => eq_refl) (H5 eq_refl)). cbn [bind]. slices. eexists. split; [reflexivity|]. rewrite F; [exact W|]. unfold gc. symmetry. apply concat_flat_map.
  - cbn [bind]. slices. eexists. split; [reflexivity|]. pose proof (F [] eq_refl) as F0. unfold bytes in *. rewrite F0. exact W.
Qed.

(** Two digests, the first of which goes through the output. *)
Lemma double st qr a p n h f1 f2 l1 c1 l2 c2 : match f1 with Some x => byte x | None => True end -> match f2 with Some x => byte x | None => True end ->
  constants st qr -> a <> 1 -> room_at st qr a 0 p n -> h <= n ->
  (forall z, (forall p l, pts (nx st) (mm st) p l -> pts (S (nx st)) (mm z) p l) -> Forall2 (item_in st z) l1 c1) ->
  (forall z, inC st [(p, n)] z -> Forall2 (item_in st z) l2 c2) ->
  let d1 := shake b (prefix_bytes f1 ++ concat c1) h in
  let d := shake b (prefix_bytes f2 ++ concat (d1 :: c2)) n in
  forall z, inC st [(p, n)] z -> (forall p l, pts (nx st) (mm st) p l -> pts (S (nx st)) (mm z) p l) ->
  runs U (Seq (c_digest P f1 l1 a 0 h) (c_digest P f2 (Buf a 0 h :: l2) a 0 n)) z (fun w => inC st [(p, n)] w /\ pts (S (nx st)) (mm w) p d).
Proof.
  intros Hf1 Hf2 Hc Ha (Hi & (d0 & Ld & Pd) & Dp) Lh H1 H2 d1 d z Hz Hold.
  assert (Hrs : forall r k, In (r, k) [(p, n)] -> disj r k qr 192) by (intros r k [E1|[]]; injection E1 as <- <-; exact Dp).
  assert (Pd1 : pts (nx st) (mm st) p (firstn h d0)).
  { destruct Pd as [X Y]. split; [exact X|]. intros j x Hj. apply Y. rewrite nth_error_firstn in Hj. destruct (j <? h); [exact Hj|discriminate]. }
  assert (Dp1 : disj p h qr 192) by (destruct Dp as [X|[X|X]]; [left; exact X|right; left; lia|right; right; exact X]).
  apply runs_seq. eapply runs_mono; [apply (digest_in U HU P f1 st qr [(p, n)] z l1 c1 a 0 p h (firstn h d0)); auto|].
  - rewrite firstn_length. lia.
  - exists n. split; [left; reflexivity|exact Lh].
  - fold d1. intros w (Hw & Wo & _). eapply runs_mono; [apply (digest_in U HU P f2 st qr [(p, n)] w (Buf a 0 h :: l2) (d1 :: c2) a 0 p n d0); auto|].
    + constructor; [|apply H2; exact Hw]. split; [exact Ha|]. exists p. split; [exact Hi|]. split; [apply Pd|]. split; [exact Wo|]. split; apply shake_ok.
    + exists n. split; [left; reflexivity|lia].
    + fold d. intros y (Hy & Yo & _). auto.
Qed.

Lemma run_runs s st (Q : state -> Prop) : runs U s st Q -> exists st' t, run U s st = Some (st', t) /\ Q st'.
Proof. unfold runs. destruct (run U s st) as [[y t]|]; [|intros []]. intros H. exists y, t. auto. Qed.

Lemma leaves_out st p d w : inC st [(p, length d)] w -> pts (S (nx st)) (mm w) p d -> fst p < nx st ->
  leaves st (mkState (iv w) (dv w) (upd (pv w) 1 (pv st 1)) (upd (mm w) (nx st) []) (nx st) (ct w)) p d.
Proof. intros Hw Pd Hp. split; [apply pts_drop; [exact Pd|exact Hp]|]. apply (inC_out st [(p, length d)] w Hw). Qed.

Lemma Commit_code st qr p seed v : constants st qr -> room_at st qr 5 0 p (digestSizeBytes P) -> holds st 3 0 (seedSizeBytes P) seed ->
  let off := holds_off p (digestSizeBytes P) st 4 in
  off 0 (stateSizeBytes P) (v_inputShare v) -> off 1 (andSizeBytes P) (v_communicatedBits v) -> off 2 (stateSizeBytes P) (v_outputShare v) ->
  let h := shake b (4%N :: firstn (seedSizeBytes P) seed) (digestSizeBytes P) in
  let d := shake b (0%N :: h ++ firstn (stateSizeBytes P) (v_inputShare v) ++ firstn (andSizeBytes P) (v_communicatedBits v) ++ firstn (stateSizeBytes P) (v_outputShare v)) (digestSizeBytes P) in
  Picnic1.Commit Es P seed v = Ok d /\ writes U (c_Commit P) st p d.
Proof.
  intros Hc Hp H3 off O0 O1 O2 h d. set (n := digestSizeBytes P) in *. set (c1 := [firstn (seedSizeBytes P) seed]).
  set (c2 := [firstn (stateSizeBytes P) (v_inputShare v); firstn (andSizeBytes P) (v_communicatedBits v); firstn (stateSizeBytes P) (v_outputShare v)]).
  assert (Eh : h = shake b (prefix_bytes HASH_PREFIX_4 ++ concat c1) n) by (unfold h, c1; cbn [prefix_bytes HASH_PREFIX_4 concat app]; rewrite app_nil_r; reflexivity).
  assert (Ed : d = shake b (prefix_bytes HASH_PREFIX_0 ++ concat (h :: c2)) n) by (unfold d, c2; cbn [prefix_bytes HASH_PREFIX_0 concat app]; rewrite app_nil_r; reflexivity).
  split. { unfold Picnic1.Commit. slices. fold n. rewrite Ed. f_equal. unfold hash. fold n. f_equal. rewrite Eh. reflexivity. }
  assert (Ln : length d = n) by apply shake_ok.
  apply run_runs. unfold c_Commit. fold n. apply (ctx_run U HU st [(p, n)]). intros z Hz Hold.
  eapply runs_mono; [apply (double st qr 5 p n n HASH_PREFIX_4 HASH_PREFIX_0 [Buf 3 0 (seedSizeBytes P)] c1 [Buf 4 0 (stateSizeBytes P); Buf 4 1 (andSizeBytes P); Buf 4 2 (stateSizeBytes P)] c2); auto|].
  - reflexivity.
  - reflexivity.
  - intros y Hy. unfold c1. its.
  - intros y Hy. assert (F : forall r j, In (r, j) [(p, n)] -> r = p /\ j = n) by (intros r j [X|[]]; injection X as <- <-; auto).
    unfold c2. repeat (apply Forall2_cons || apply Forall2_nil); try reflexivity; (eapply item_off; [discriminate|exact Hy|exact F|assumption]).
  - rewrite <- Eh, <- Ed. intros w [Hw Wo]. split; [exact Hw|]. rewrite <- Ln in Hw. apply leaves_out; auto. destruct Hp as (_ & (d0 & _ & [X _]) & _). exact X.
Qed.

Lemma createRandomTape_code st qr p seed salt r j n buf : digestSizeBytes P <= n -> constants st qr -> room_at st qr 5 0 p n -> holds st 3 0 (seedSizeBytes P) seed ->
  holds_off p n st 4 0 (saltSizeBytes P) salt -> n <= length buf ->
  let h := shake b (2%N :: firstn (seedSizeBytes P) seed) (digestSizeBytes P) in
  let d := shake b (h ++ firstn (saltSizeBytes P) salt ++ intLE r ++ intLE j ++ intLE n) n in
  createRandomTape Es P seed salt r j buf n = Ok (true, d ++ skipn n buf) /\
  exists st' t, run U (c_createRandomTape P r j n) st = Some (st', t) /\ leaves st st' p d /\ iv st' 12 = 1.
Proof.
  intros Lh Hc Hp H3 O4 Lb h d. set (c1 := [firstn (seedSizeBytes P) seed]). set (c2 := [firstn (saltSizeBytes P) salt; intLE r; intLE j; intLE n]).
  assert (Eh : h = shake b (prefix_bytes HASH_PREFIX_2 ++ concat c1) (digestSizeBytes P)) by (unfold h, c1; cbn [prefix_bytes HASH_PREFIX_2 concat app]; rewrite app_nil_r; reflexivity).
  assert (Ed : d = shake b (prefix_bytes HASH_PREFIX_NONE ++ concat (h :: c2)) n) by (unfold d, c2; cbn [prefix_bytes HASH_PREFIX_NONE concat app]; rewrite app_nil_r; reflexivity).
  assert (Ln : length d = n) by apply shake_ok. assert (Lhh : length h = digestSizeBytes P) by apply shake_ok.
  split.
  { unfold createRandomTape. rewrite (proj2 (Nat.ltb_ge _ _) Lh). slices. unfold hash. change (xof Es) with shake. fold c1. unfold bytes in *. rewrite <- Eh.
    rewrite blit_ok by (rewrite Lhh; lia). cbn [bind]. slices. change (concat [h; firstn (saltSizeBytes P) salt; intLE r; intLE j; intLE n]) with (concat (h :: c2)). rewrite <- Ed.
    rewrite blit_ok by (rewrite length_blit_list; lia). cbn [bind]. do 2 f_equal. unfold blit_list. cbn [firstn app Nat.add]. rewrite Ln, Lhh.
    f_equal. rewrite skipn_app, (skipn_all2 h) by lia. cbn [app]. rewrite skipn2. f_equal. lia. }
  apply run_runs. unfold c_createRandomTape. apply (ctx_run U HU st [(p, n)]). intros z Hz Hold.
  eapply runs_if; [csimpl; rewrite (proj2 (Nat.ltb_ge _ _) Lh); reflexivity|]. cbn match.
  assert (R : forall s1 s2 s3 Q, runs U (Seq s1 s2) z (fun w => runs U s3 w Q) -> runs U (Seq s1 (Seq s2 s3)) z Q).
  { intros s1 s2 s3 Q. unfold runs. cbn [run]. destruct (run U s1 z) as [[y t]|]; cbn [andthen]; [|intros []]. destruct (run U s2 y) as [[y' t']|]; cbn [andthen emit]; [|intros []].
    destruct (run U s3 y') as [[y2 t2]|]; cbn [emit]; auto. }
  apply R. eapply runs_mono; [apply (double st qr 5 p n (digestSizeBytes P) HASH_PREFIX_2 HASH_PREFIX_NONE [Buf 3 0 (seedSizeBytes P)] c1 [Buf 4 0 (saltSizeBytes P); Num r; Num j; Num n] c2); auto|].
  - reflexivity.
  - exact I.
  - intros y Hy. unfold c1. its.
  - intros y Hy. assert (F : forall r j, In (r, j) [(p, n)] -> r = p /\ j = n) by (intros r' j' [X|[]]; injection X as <- <-; auto).
    unfold c2. repeat (apply Forall2_cons || apply Forall2_nil); try reflexivity; (eapply item_off; [discriminate|exact Hy|exact F|assumption]).
  - rewrite <- Eh, <- Ed. intros w [Hw Wo]. apply runs_iset. unfold set_iv. csimpl. split.
    + destruct Hw as [A1 A2 A3 A4 A5 A6 A7]. split; auto.
    + split; [|reflexivity]. rewrite <- Ln in Hw. assert (X : fst p < nx st) by (destruct Hp as (_ & (d0 & _ & [X _]) & _); exact X).
      destruct (leaves_out st p d w Hw Wo X) as (L1 & L2 & L3 & L4 & L5 & L6). exact (conj L1 (conj L2 (conj L3 (conj L4 (conj L5 L6))))).
Qed.

Lemma createRandomTape_short_code st seed salt r j n buf : n < digestSizeBytes P ->
  createRandomTape Es P seed salt r j buf n = Ok (false, buf) /\
  exists st' t, run U (c_createRandomTape P r j n) st = Some (st', t) /\ chg (nx st) (mm st) (mm st') [] /\ iv st' 12 = 0.
Proof.
  intros Lh. split; [unfold createRandomTape; rewrite (proj2 (Nat.ltb_lt _ _) Lh); reflexivity|].
  apply run_runs. unfold c_createRandomTape. apply (ctx_run U HU st []). intros z Hz Hold.
  eapply runs_if; [csimpl; rewrite (proj2 (Nat.ltb_lt _ _) Lh); reflexivity|]. cbn match. apply runs_iset. unfold set_iv. csimpl. split.
  - destruct Hz as [A1 A2 A3 A4 A5 A6 A7]. split; auto.
  - split; [|reflexivity]. apply (inC_out st [] z Hz).
Qed.

Lemma G_code st qr p view seed v out : let n := G_bytes P view in digestSizeBytes P <= n -> constants st qr -> room_at st qr 5 0 p n -> holds st 3 0 (seedSizeBytes P) seed ->
  let off := holds_off p n st 4 in
  (view = 2 -> off 0 (stateSizeBytes P) (v_inputShare v)) -> off 1 (andSizeBytes P) (v_communicatedBits v) -> n <= length out ->
  let h := shake b (5%N :: firstn (seedSizeBytes P) seed) (digestSizeBytes P) in
  let d := shake b (h ++ (if view =? 2 then firstn (stateSizeBytes P) (v_inputShare v) else []) ++ firstn (andSizeBytes P) (v_communicatedBits v) ++ intLE n) n in
  Picnic1.G Es P view seed v out = Ok (d ++ skipn n out) /\ writes U (c_G P view) st p d.
Proof.
  intros n Lh Hc Hp H3 off O0 O1 Lb h d. set (c1 := [firstn (seedSizeBytes P) seed]).
  set (c2 := (if view =? 2 then [firstn (stateSizeBytes P) (v_inputShare v)] else []) ++ [firstn (andSizeBytes P) (v_communicatedBits v); intLE n]).
  assert (Eh : h = shake b (prefix_bytes HASH_PREFIX_5 ++ concat c1) (digestSizeBytes P)) by (unfold h, c1; cbn [prefix_bytes HASH_PREFIX_5 concat app]; rewrite app_nil_r; reflexivity).
  assert (Ed : d = shake b (prefix_bytes HASH_PREFIX_NONE ++ concat (h :: c2)) n).
  { unfold d, c2. f_equal. destruct (view =? 2); cbn [prefix_bytes HASH_PREFIX_NONE concat app]; rewrite app_nil_r; reflexivity. }
  assert (Ln : length d = n) by apply shake_ok. assert (Lhh : length h = digestSizeBytes P) by apply shake_ok.
  split.
  { unfold Picnic1.G. change (seedSizeBytes P + andSizeBytes P + (if view =? 2 then stateSizeBytes P else 0)) with n. slices. unfold hash. change (xof Es) with shake. fold c1. unfold bytes in *. rewrite <- Eh.
    rewrite blit_ok by (rewrite Lhh; lia). cbn [bind].
    assert (Ei : (if view =? 2 then slice (v_inputShare v) 0 (stateSizeBytes P) else Ok []) = Ok (if view =? 2 then firstn (stateSizeBytes P) (v_inputShare v) else [])).
    { destruct (Nat.eqb_spec view 2) as [Ev|_]; [|reflexivity]. specialize (O0 Ev). apply slice0_ok. eapply off_len. exact O0. }
    rewrite Ei. cbn [bind]. slices.
    assert (Ec : concat [h; if view =? 2 then firstn (stateSizeBytes P) (v_inputShare v) else []; firstn (andSizeBytes P) (v_communicatedBits v); intLE n] = concat (h :: c2)).
    { unfold c2. destruct (view =? 2); reflexivity. }
    match goal with |- context [concat ?l] => replace (concat l) with (concat (h :: c2)) by (symmetry; exact Ec) end. rewrite <- Ed. rewrite blit_ok by (rewrite length_blit_list; lia). f_equal. unfold blit_list. cbn [firstn app Nat.add]. rewrite Ln, Lhh.
    f_equal. rewrite skipn_app, (skipn_all2 h) by lia. cbn [app]. rewrite skipn2. f_equal. lia. }
  apply run_runs. unfold c_G. fold n. apply (ctx_run U HU st [(p, n)]). intros z Hz Hold.
  eapply runs_mono; [apply (double st qr 5 p n (digestSizeBytes P) HASH_PREFIX_5 HASH_PREFIX_NONE [Buf 3 0 (seedSizeBytes P)] c1
    ((if view =? 2 then [Buf 4 0 (stateSizeBytes P)] else []) ++ [Buf 4 1 (andSizeBytes P); Num n]) c2); auto|].
  - reflexivity.
  - exact I.
  - intros y Hy. unfold c1. its.
  - intros y Hy. assert (F : forall r j, In (r, j) [(p, n)] -> r = p /\ j = n) by (intros r' j' [X|[]]; injection X as <- <-; auto).
    unfold c2. apply Forall2_app.
    + destruct (Nat.eqb_spec view 2) as [Ev|_]; [|constructor]. specialize (O0 Ev). repeat (apply Forall2_cons || apply Forall2_nil); try reflexivity. eapply item_off; [discriminate|exact Hy|exact F|exact O0].
    + repeat (apply Forall2_cons || apply Forall2_nil); try reflexivity. eapply item_off; [discriminate|exact Hy|exact F|assumption].
  - rewrite <- Eh, <- Ed. intros w [Hw Wo]. split; [exact Hw|]. rewrite <- Ln in Hw. apply leaves_out; auto. destruct Hp as (_ & (d0 & _ & [X _]) & _). exact X.
Qed.
(** One digest for each party. *)
Lemma createRandomTapes_code st qr seeds salt t out : let N := numMPCParties P in let n := p3_tapeSize P in constants st qr ->
  (forall i, i < N -> room_at st qr 5 i (out i) n) -> (forall i j, i < N -> j < N -> i <> j -> disj (out i) n (out j) n) ->
  (forall i, i < N -> exists seed, nth_error seeds i = Some seed /\ forall j, j < N -> holds_off (out j) n st 3 i (seedSizeBytes P) seed) ->
  saltSizeBytes P <= length salt -> (forall j, j < N -> holds_off (out j) n st 4 0 (saltSizeBytes P) salt) ->
  let d i := shake b (firstn (seedSizeBytes P) (nth i seeds []) ++ firstn (saltSizeBytes P) salt ++ intLE t ++ intLE i) n in
  createRandomTapes Es P seeds salt t = Ok (mkTapes (map d (seq 0 N)) 0) /\
  exists st' tr, run U (c_createRandomTapes P t n) st = Some (st', tr) /\ (forall i, i < N -> pts (nx st) (mm st') (out i) (d i)) /\
    chg (nx st) (mm st) (mm st') (map (fun i => (out i, n)) (seq 0 N)) /\
    iv st' 11 = iv st 11 /\ dv st' = dv st /\ (forall a, pv st' a = pv st a) /\ nx st' = nx st.
Proof.
  intros N n Hc Ho Hd H3 Ls H4 d. split.
  { unfold createRandomTapes. fold N. rewrite (mapM_seq_pure N 0 _ d); [reflexivity|]. intros i Hi. destruct (H3 i ltac:(lia)) as (s & Hs & Hh). unfold rd. rewrite Hs. cbn [bind].
    rewrite slice0_ok by (eapply off_len; apply (Hh i); lia). cbn [bind]. rewrite slice0_ok by exact Ls. cbn [bind].
    unfold d, hash. rewrite (nth_error_nth _ _ _ Hs). cbn [prefix_bytes HASH_PREFIX_NONE concat app]. rewrite app_nil_r. reflexivity. }
  set (rs := map (fun i => (out i, n)) (seq 0 N)).
  assert (Irs : forall r k, In (r, k) rs -> exists j, j < N /\ r = out j /\ k = n).
  { intros r k Hi. apply in_map_iff in Hi. destruct Hi as (j & E1 & Hj). injection E1 as <- <-. apply in_seq in Hj. exists j. split; [lia|auto]. }
  apply run_runs. unfold c_createRandomTapes. fold N. apply (ctx_run U HU st rs). intros z Hz _.
  assert (L : forall k z, k <= N -> inC st rs z -> (forall i, i < N - k -> pts (S (nx st)) (mm z) (out i) (d i)) ->
    runs U (fold_right (fun i s => Seq (c_digest P HASH_PREFIX_NONE [Buf 3 i (seedSizeBytes P); Buf 4 0 (saltSizeBytes P); Num t; Num i] 5 i n) s) Skip (seq (N - k) k)) z
      (fun w => inC st rs w /\ forall i, i < N -> pts (S (nx st)) (mm w) (out i) (d i))).
  { clear z Hz. induction k as [|k IH]; intros z Hk Hz Hp; cbn [seq fold_right].
    - apply runs_skip. split; [exact Hz|]. intros i Hi. apply Hp. lia.
    - set (j := N - S k) in *. replace (S j) with (N - k) by lia. assert (Hj : j < N) by lia. destruct (Ho j Hj) as (Oj & (d0 & Ld & Pd) & Dj).
      destruct (H3 j Hj) as (s & Hs & Hh). set (cs := [firstn (seedSizeBytes P) s; firstn (saltSizeBytes P) salt; intLE t; intLE j]).
      assert (Ed : d j = shake b (prefix_bytes HASH_PREFIX_NONE ++ concat cs) n) by (unfold d, cs; rewrite (nth_error_nth _ _ _ Hs); cbn [prefix_bytes HASH_PREFIX_NONE concat app]; rewrite app_nil_r; reflexivity).
      assert (Off : forall a i m l, a <> 1 -> (forall x, x < N -> holds_off (out x) n st a i m l) -> item_in st z (Buf a i m) (firstn m l)).
      { intros a i m l Ha Hl. destruct (Hl j Hj) as (q & Q1 & Q2 & Q3 & Q4 & _ & _). assert (Lm : length (firstn m l) = m) by (rewrite firstn_length; lia).
        split; [exact Ha|]. exists q. split; [exact Q1|]. split; [apply Q2|]. split; [|split; [exact (bytes_ok_slice l 0 m Q3)|exact Lm]].
        apply (inC_pts st rs z _ _ Hz).
        - destruct Q2 as [X Y]. split; [exact X|]. intros y x Hy. apply Y. rewrite nth_error_firstn in Hy. destruct (y <? m); [exact Hy|discriminate].
        - intros r kk Hr. destruct (Irs _ _ Hr) as (x & Hx & -> & ->). destruct (Hl x Hx) as (q' & Q1' & _ & _ & _ & _ & Dx). rewrite Lm. replace q with q' by congruence. exact Dx. }
      apply runs_seq. eapply runs_mono; [apply (digest_in U HU P HASH_PREFIX_NONE st qr rs z _ cs 5 j (out j) n d0); auto|].
      + exact I.
      + intros r kk Hr. destruct (Irs _ _ Hr) as (x & Hx & -> & ->). apply (Ho x Hx).
      + unfold cs. repeat (apply Forall2_cons || apply Forall2_nil); try reflexivity; apply Off; try discriminate; assumption.
      + exists n. split; [|lia]. apply in_map_iff. exists j. split; [reflexivity|]. apply in_seq. lia.
      + rewrite <- Ed. intros w (Hw & Wo & Wc). apply IH; [lia|exact Hw|]. intros i Hi. destruct (Nat.eq_dec i j) as [->|Hij]; [exact Wo|].
        apply (pts_chg _ _ _ _ _ _ Wc); [apply Hp; lia|]. intros r kk [E1|[E1|[]]]; injection E1 as <- <-.
        * left. cbn [fst]. destruct (Ho i ltac:(lia)) as (_ & (x & _ & [X _]) & _). lia.
        * replace (length (d i)) with n by (symmetry; apply shake_ok). apply Hd; lia. }
  specialize (L N z (le_n N) Hz). rewrite Nat.sub_diag in L. eapply runs_mono; [apply L; intros i Hi; lia|].
  intros w [Hw Wo]. split; [exact Hw|]. split; [|exact (inC_out st rs w Hw)]. intros i Hi. apply pts_drop; [apply Wo; exact Hi|]. destruct (Ho i Hi) as (_ & (x & _ & [X _]) & _). exact X.
Qed.
End M.

(** ** Nothing is shown *)
Lemma item_shows x : shows_nothing (c_item x) = true.
Proof. destruct x; reflexivity. Qed.
Lemma items_shows l : shows_nothing (c_items l) = true.
Proof. induction l as [|x l IH]; [reflexivity|]. cbn [c_items]. change (shows_nothing (c_item x) && shows_nothing (c_items l) = true). rewrite IH, item_shows. reflexivity. Qed.
Lemma digest_shows P prefix l a i n : shows_nothing (c_digest P prefix l a i n) = true.
Proof.
  unfold c_digest. change (shows_nothing (c_HashInit (use_shake128 P) prefix (P0 1) 0 2) && (shows_nothing (c_items l) && true) = true). rewrite items_shows.
  destruct (use_shake128 P), prefix; reflexivity.
Qed.

Lemma hashes_shows P s : hashes P s -> shows_nothing s = true.
Proof.
  intros []; try (apply digest_shows).
  - unfold c_Commit, with_ctx. cbn [shows_nothing]. rewrite !digest_shows. reflexivity.
  - unfold c_createRandomTape, with_ctx. cbn [shows_nothing]. rewrite !digest_shows. reflexivity.
  - unfold c_G, with_ctx. cbn [shows_nothing]. rewrite !digest_shows. reflexivity.
  - unfold c_createRandomTapes, with_ctx. cbn [shows_nothing]. induction (seq 0 (numMPCParties P)) as [|i l IH]; [reflexivity|]. cbn [fold_right shows_nothing]. rewrite digest_shows, IH. reflexivity.
Qed.
Lemma hashes_constant_time U U' P s x y : locals_ok U -> locals_ok U' -> hashes P s -> same_public x y -> observed (run U s x) = observed (run U' s y).
Proof. intros. apply observed_same; auto. eapply hashes_shows. eassumption. Qed.
