(** Memories in which the programs of Picnic3 can be called. *)

From Coq Require Import List NArith Arith Bool Lia ZifyBool ZifyNat ZifyN.
From Verif Require Import Base Params Env Spec LowMC Picnic3 MiniC CodeLowMC CodeP3 CodeSpec CodeZkbSpec CodeP3Spec CodeP3Proto.
From Verif Require Import BaseFacts ParamFacts LowMCFacts ZkbChal P3Tape P3Aux P3Online P3Mask MiniCFacts CodeRules CodeWitness CodeZkbWitness CodeZkbVerThm CodeP3AuxThm CodeP3SimThm CodeP3Thm Witness.
Import ListNotations.
Local Opaque pack.

(** For the auxiliary bits: tapes in blocks 0-15, inputs in 16, then the constants. *)
Definition aux_tables (E : env) (P : paramset) (i : nat) : bytes :=
  let R := numRounds P in
  if i <? R + 1 then KMatrix E P i else if i <? R + 1 + 1 then KMatrixInv E P (i - (R + 1)) else
  if i <? R + 1 + 1 + R then LMatrixInv E P (i - (R + 1 + 1)) else [].
Definition aux_memory (E : env) (P : paramset) (tl : list bytes) (b : nat) : bytes :=
  if b <? 16 then nth b tl [] else if b =? 16 then zeros (stateSizeBytes P) else aux_tables E P (b - 17).
Definition aux_start (E : env) (P : paramset) (tl : list bytes) (want : bool) : state :=
  let R := numRounds P in
  mkState (args 0 [0; if want then 1 else 0]) (fun _ => 0%N)
    (args [] [places 0 16; [(16, 0)]; places 17 (R + 1); places (17 + (R + 1)) 1; places (17 + (R + 1 + 1)) R])
    (aux_memory E P tl) (17 + (R + 1 + 1 + R)) 0.
Definition aux_inputs (want : bool) : option ptr := if want then Some (16, 0) else None.

Lemma aux_tables_bytes E P : constants_ok E P -> inverses_ok E P -> forall i, bytes_ok (aux_tables E P i).
Proof.
  intros (CK & _) ((_ & IK) & _ & IL) i. unfold aux_tables. set (R := numRounds P) in *.
  destruct (Nat.ltb_spec i (R + 1)); [apply CK; lia|]. destruct (Nat.ltb_spec i (R + 1 + 1)); [replace (i - (R + 1)) with 0 by lia; exact IK|].
  destruct (Nat.ltb_spec i (R + 1 + 1 + R)); [apply IL; lia|constructor].
Qed.

Lemma aux_outside P want b k : b <> 15 -> b <> 16 -> outside (aux_writes P (15, 0) (aux_inputs want)) (b, 0) k.
Proof.
  intros H1 H2 p l Hp. destruct want; cbn [aux_writes aux_inputs In] in Hp.
  - destruct Hp as [Hp|[Hp|[]]]; injection Hp as <- <-; apply blocks_disj; lia.
  - destruct Hp as [Hp|[]]; injection Hp as <- <-; apply blocks_disj; lia.
Qed.

Lemma aux_start_call E P tl want : constants_ok E P -> inverses_ok E P -> length tl = 16 ->
  (forall i, i < 16 -> length (nth i tl []) = 2 * andSizeBytes P /\ bytes_ok (nth i tl [])) ->
  aux_call E P (aux_start E P tl want) tl (15, 0) (aux_inputs want).
Proof.
  intros HC HI Ht HT. pose proof (aux_tables_bytes E P HC HI) as HB.
  assert (Tb : forall i, i < numRounds P + 1 + 1 + numRounds P ->
    reads (aux_start E P tl want) (aux_writes P (15, 0) (aux_inputs want)) (17 + i, 0) (aux_tables E P i)).
  { intros i Hi. split; [|split; [apply HB|apply aux_outside; lia]]. apply pts_block; [cbn [aux_start nx]; lia|].
    cbn [aux_start mm]. unfold aux_memory. rewrite (proj2 (Nat.ltb_ge (17 + i) 16)), (proj2 (Nat.eqb_neq (17 + i) 16)) by lia. f_equal. lia. }
  split.
  - reflexivity.
  - destruct want; reflexivity.
  - split; [exact Ht|]. intros i Hi. apply HT, Hi.
  - split; [reflexivity|]. split; [|apply HT; lia]. apply pts_block; [cbn [aux_start nx]; lia|reflexivity].
  - intros i Hi. exists (i, 0). split; [apply (nth_places 0 16 i); lia|]. split; [|split; [apply HT; lia|apply aux_outside; lia]].
    apply pts_block; [cbn [aux_start nx]; lia|]. cbn [aux_start mm]. unfold aux_memory. rewrite (proj2 (Nat.ltb_lt i 16)) by lia. reflexivity.
  - intros q Hq. destruct want; [|discriminate Hq]. injection Hq as <-. split; [reflexivity|]. exists (zeros (stateSizeBytes P)). split; [|apply length_zeros].
    split; [|apply bytes_ok_zeros]. apply pts_block; [cbn [aux_start nx]; lia|reflexivity].
  - intros i j p k q l Hi Hj Hne. destruct want; cbn [aux_writes aux_inputs] in Hi, Hj.
    + destruct i as [|[|i]]; cbn [nth_error] in Hi; [..|destruct i; discriminate Hi]; (destruct j as [|[|j]]; cbn [nth_error] in Hj; [..|destruct j; discriminate Hj]);
      injection Hi as <- <-; injection Hj as <- <-; try (exfalso; apply Hne; reflexivity); apply blocks_disj; lia.
    + destruct i as [|i]; cbn [nth_error] in Hi; [|destruct i; discriminate Hi]. destruct j as [|j]; cbn [nth_error] in Hj; [|destruct j; discriminate Hj]. exfalso. apply Hne. reflexivity.
  - intros i Hi. exists (17 + i, 0). split; [apply nth_places, Hi|]. split; [|apply blocks_aligned].
    replace (KMatrix E P i) with (aux_tables E P i) by (unfold aux_tables; rewrite (proj2 (Nat.ltb_lt i _)) by lia; reflexivity). apply Tb. lia.
  - intros i Hi. exists (17 + (numRounds P + 1) + i, 0). split; [apply nth_places, Hi|]. split; [|apply blocks_aligned].
    replace (17 + (numRounds P + 1) + i) with (17 + (numRounds P + 1 + i)) by lia.
    replace (KMatrixInv E P i) with (aux_tables E P (numRounds P + 1 + i)); [apply Tb; lia|]. unfold aux_tables.
    rewrite (proj2 (Nat.ltb_ge (numRounds P + 1 + i) _)), (proj2 (Nat.ltb_lt (numRounds P + 1 + i) _)) by lia. f_equal. lia.
  - intros i Hi. exists (17 + (numRounds P + 1 + 1) + i, 0). split; [apply nth_places, Hi|]. split; [|apply blocks_aligned].
    set (R := numRounds P) in *. replace (17 + (R + 1 + 1) + i) with (17 + (R + 1 + 1 + i)) by lia.
    replace (LMatrixInv E P i) with (aux_tables E P (R + 1 + 1 + i)); [apply Tb; lia|]. unfold aux_tables. fold R.
    rewrite (proj2 (Nat.ltb_ge (R + 1 + 1 + i) (R + 1))), (proj2 (Nat.ltb_ge (R + 1 + 1 + i) (R + 1 + 1))), (proj2 (Nat.ltb_lt (R + 1 + 1 + i) _)) by lia. f_equal. lia.
Qed.

Lemma aux_same_public E P tl tl' want : (forall i, length (nth i tl []) = length (nth i tl' [])) ->
  same_public (aux_start E P tl want) (aux_start E P tl' want).
Proof.
  intros H. unfold same_public, aux_start. csimpl. repeat (split; [reflexivity|]).
  intros k. unfold aux_memory. destruct (k <? 16); [apply H|reflexivity].
Qed.

(** For the online computation: tapes in blocks 0-15, messages in 16-31, masked key, plaintext, public key, masks of
    the state, then the constants. *)
Definition online_memory (E : env) (P : paramset) (tl ml : list bytes) (mk pt pub : bytes) (b : nat) : bytes :=
  if b <? 16 then nth b tl [] else if b <? 32 then nth (b - 16) ml [] else
  match b - 32 with
  | 0 => mk | 1 => pt | 2 => pub | 3 => zeros (2 * stateSizeBits P)
  | S (S (S (S i))) => tables E P i
  end.
Definition online_start (E : env) (P : paramset) (tl ml : list bytes) (uo : option nat) (mk pt pub : bytes) : state :=
  let R := numRounds P in
  mkState (args 0 [0; 0; match uo with Some u => S u | None => 0 end; stateSizeBits P]) (fun _ => 0%N)
    (args [] [[(32, 0)]; places 0 16; [(35, 0)]; places 16 16; [(33, 0)]; [(34, 0)];
              places 36 (R + 1); places (36 + (R + 1)) R; places (36 + (R + 1 + R)) R])
    (online_memory E P tl ml mk pt pub) (36 + (R + 1 + R + R)) 0.
Definition msg_ptr (i : nat) : ptr := (16 + i, 0).

Lemma online_nth P i p k : nth_error (online_writes P msg_ptr (35, 0)) i = Some (p, k) -> i < 17 /\ p = (if i <? 16 then 16 + i else 35, 0).
Proof.
  intros H. assert (Hi : i < length (online_writes P msg_ptr (35, 0))) by (apply nth_error_Some; rewrite H; discriminate).
  change (length (online_writes P msg_ptr (35, 0))) with 17 in Hi.
  split; [exact Hi|]. do 17 (destruct i as [|i]; [cbn in H; injection H as <- _; reflexivity|]). lia.
Qed.

Lemma online_outside P b k : b < 16 \/ 31 < b -> b <> 35 -> outside (online_writes P msg_ptr (35, 0)) (b, 0) k.
Proof.
  intros H1 H2 p l Hp. apply In_nth_error in Hp. destruct Hp as [i Hp]. apply online_nth in Hp. destruct Hp as [Hi ->]. apply blocks_disj.
  destruct (Nat.ltb_spec i 16); lia.
Qed.

Lemma online_start_call E P tl ml uo mk pt pub : constants_ok E P ->
  length tl = 16 -> (forall i, i < 16 -> length (nth i tl []) = 2 * andSizeBytes P /\ bytes_ok (nth i tl [])) ->
  length ml = 16 -> (forall i, i < 16 -> length (nth i ml []) = andSizeBytes P /\ bytes_ok (nth i ml [])) ->
  (forall u, uo = Some u -> u < 16) ->
  bytes_ok mk -> stateSizeBits P <= 8 * length mk -> bytes_ok pt -> 4 * stateSizeWords P <= length pt -> bytes_ok pub -> stateSizeBytes P <= length pub ->
  online_call E P (online_start E P tl ml uo mk pt pub) tl ml uo mk pt pub msg_ptr (35, 0).
Proof.
  intros HC Lt HT Lm HMs Hu Bk Lk Bp Lp Bb Lb. pose proof (tables_bytes E P HC) as HB. set (st := online_start E P tl ml uo mk pt pub).
  assert (Rd : forall b, b < 36 + (numRounds P + 1 + numRounds P + numRounds P) -> b < 16 \/ 31 < b -> b <> 35 -> bytes_ok (online_memory E P tl ml mk pt pub b) ->
    reads st (online_writes P msg_ptr (35, 0)) (b, 0) (online_memory E P tl ml mk pt pub b)).
  { intros b H1 H2 H3 B. split; [|split; [exact B|apply online_outside; assumption]]. apply pts_block; [exact H1|reflexivity]. }
  assert (Tb : forall i, i < numRounds P + 1 + numRounds P + numRounds P -> reads st (online_writes P msg_ptr (35, 0)) (36 + i, 0) (tables E P i)).
  { intros i Hi. replace (tables E P i) with (online_memory E P tl ml mk pt pub (36 + i)); [apply Rd; try lia|];
    (assert (X : online_memory E P tl ml mk pt pub (36 + i) = tables E P i);
     [unfold online_memory; rewrite (proj2 (Nat.ltb_ge (36 + i) 16)), (proj2 (Nat.ltb_ge (36 + i) 32)) by lia; replace (36 + i - 32) with (4 + i) by lia; reflexivity|]).
    - rewrite X. apply HB.
    - exact X. }
  split.
  - split; reflexivity.
  - split; [destruct uo; reflexivity|exact Hu].
  - reflexivity.
  - exists (32, 0). split; [reflexivity|]. split; [|split; [apply blocks_aligned|exact Lk]]. apply (Rd 32); [lia..|exact Bk].
  - split; [exact Lt|]. intros i Hi. exists (i, 0). split; [apply (nth_places 0 16 i Hi)|]. split; [|apply HT, Hi].
    assert (X : online_memory E P tl ml mk pt pub i = nth i tl []) by (unfold online_memory; rewrite (proj2 (Nat.ltb_lt i 16)) by exact Hi; reflexivity).
    pose proof (Rd i ltac:(lia) ltac:(lia) ltac:(lia)) as Y. rewrite X in Y. apply Y, HT, Hi.
  - split; [reflexivity|]. split; [reflexivity|]. exists (zeros (2 * stateSizeBits P)). split; [|apply length_zeros]. split; [|apply bytes_ok_zeros].
    apply pts_block; [cbn [st online_start nx]; lia|reflexivity].
  - split; [exact Lm|]. intros i Hi. split; [apply (nth_places 16 16 i Hi)|]. split; [|apply HMs, Hi]. split; [|apply HMs, Hi].
    apply pts_block; [cbn [st online_start nx]; lia|]. cbn [st online_start mm]. unfold online_memory.
    rewrite (proj2 (Nat.ltb_ge (16 + i) 16)), (proj2 (Nat.ltb_lt (16 + i) 32)) by lia. f_equal. lia.
  - exists (33, 0). split; [reflexivity|]. split; [|split; [apply blocks_aligned|exact Lp]]. apply (Rd 33); [lia..|exact Bp].
  - exists (34, 0). split; [reflexivity|]. split; [|exact Lb]. apply (Rd 34); [lia..|exact Bb].
  - intros i j p k q l Hi Hj Hne. apply online_nth in Hi. apply online_nth in Hj. destruct Hi as [Hi ->], Hj as [Hj ->]. apply blocks_disj.
    destruct (Nat.ltb_spec i 16), (Nat.ltb_spec j 16); lia.
  - intros i Hi. exists (36 + i, 0). split; [apply nth_places, Hi|]. split; [|apply blocks_aligned].
    replace (KMatrix E P i) with (tables E P i) by (unfold tables; rewrite (proj2 (Nat.ltb_lt i _)) by lia; reflexivity). apply Tb. lia.
  - intros i Hi. exists (36 + (numRounds P + 1) + i, 0). split; [apply nth_places, Hi|]. split; [|apply blocks_aligned].
    replace (36 + (numRounds P + 1) + i) with (36 + (numRounds P + 1 + i)) by lia.
    replace (LMatrix E P i) with (tables E P (numRounds P + 1 + i)); [apply Tb; lia|]. unfold tables.
    rewrite (proj2 (Nat.ltb_ge (numRounds P + 1 + i) _)), (proj2 (Nat.ltb_lt (numRounds P + 1 + i) _)) by lia. f_equal. lia.
  - intros i Hi. exists (36 + (numRounds P + 1 + numRounds P) + i, 0). split; [apply nth_places, Hi|]. split; [|apply blocks_aligned].
    set (R := numRounds P) in *. replace (36 + (R + 1 + R) + i) with (36 + (R + 1 + R + i)) by lia.
    replace (RConstant E P i) with (tables E P (R + 1 + R + i)); [apply Tb; lia|]. unfold tables. fold R.
    rewrite (proj2 (Nat.ltb_ge (R + 1 + R + i) (R + 1))), (proj2 (Nat.ltb_ge (R + 1 + R + i) (R + 1 + R))), (proj2 (Nat.ltb_lt (R + 1 + R + i) _)) by lia. f_equal. lia.
Qed.

Lemma online_same_public E P tl ml mk pt pub tl' ml' mk' pt' pub' uo :
  (forall i, length (nth i tl []) = length (nth i tl' [])) -> (forall i, length (nth i ml []) = length (nth i ml' [])) ->
  length mk = length mk' -> length pt = length pt' -> length pub = length pub' ->
  same_public (online_start E P tl ml uo mk pt pub) (online_start E P tl' ml' uo mk' pt' pub').
Proof.
  intros H1 H2 H3 H4 H5. unfold same_public, online_start. csimpl. repeat (split; [reflexivity|]).
  intros k. unfold online_memory. destruct (k <? 16); [apply H1|]. destruct (k <? 32); [apply H2|].
  destruct (k - 32) as [|[|[|[|i]]]]; auto.
Qed.

(** Tapes and mask that the computation of the auxiliary bits leaves in such a memory. *)
Lemma preprocessed_case U E P tl : locals_ok U -> wfP3 P -> env_bytes_ok E -> constants_ok E P -> inverses_ok E P -> length tl = 16 ->
  (forall i, i < 16 -> length (nth i tl []) = 2 * andSizeBytes P /\ bytes_ok (nth i tl [])) ->
  exists tl2 msk, preprocessed U E P tl2 msk /\ length tl2 = 16 /\ (forall i, i < 16 -> length (nth i tl2 []) = 2 * andSizeBytes P /\ bytes_ok (nth i tl2 [])) /\
    length msk = stateSizeBytes P /\ bytes_ok msk /\ (forall i, i < 15 -> nth i tl2 [] = nth i tl []).
Proof.
  intros HU HP HE HC HI Lt HT. pose proof (aux_start_call E P tl true HC HI Lt HT) as HM. cbn [aux_inputs] in HM.
  destruct (computeAuxTape_code U E P _ tl (15, 0) (Some (16, 0)) HU HP HE HC HI HM) as (st' & t & T' & key & Hr & F & T15 & P15 & PK & _).
  pose proof (aux_rows E P _ tl (15, 0) (Some (16, 0)) HM) as HR. rewrite (computeAuxTape_ok E P HP HE HC HI tl HR) in F.
  assert (FT : aux_tapes E P tl = T') by congruence. assert (FK : aux_key E P tl = key) by congruence. subst T' key.
  destruct (aux_tapes_spec E P HP tl HR) as [[LA HA] _].
  exists (aux_tapes E P tl), (aux_key E P tl). split; [|split; [exact LA|split; [exact HA|split; [apply pack_spec|split; [apply pack_spec|exact T15]]]]].
  exists (aux_start E P tl true), st', t, tl, (15, 0), (16, 0). split; [exact HM|]. split; [exact Hr|]. split; [exact LA|]. split; [exact T15|].
  split; [exact P15|]. split; [apply (HA 15); lia|]. split; [apply PK; reflexivity|]. apply pack_spec.
Qed.

(** The masked key and the ciphertext as bytes. *)
Definition masked (P : paramset) (msk key : bytes) : bytes := pack (4 * stateSizeWords P) (fun i => if i <? stateSizeBits P then xorb (bit key i) (bit msk i) else false).
Definition cipher (E : env) (P : paramset) (key pt : bytes) : bytes :=
  pack (stateSizeBytes P) (fun i => if i <? stateSizeBits P then lowmc_enc (lowmc_of E P) (bit key) (bit pt) i else false).

Lemma masked_masks P msk key : wfP3 P -> masks P msk key (masked P msk key) /\ length (masked P msk key) = 4 * stateSizeWords P /\ bytes_ok (masked P msk key).
Proof.
  intros HP. destruct (pack_spec (4 * stateSizeWords P) (fun i => if i <? stateSizeBits P then xorb (bit key i) (bit msk i) else false)) as (A & B & C).
  split; [|split; [exact A|exact B]]. intros i Hi. unfold masked. rewrite C, (proj2 (Nat.ltb_lt i _) Hi). pose proof (sB_W P HP) as (B1 & _).
  pose proof (wf_W2 P (w3_wfP P HP)). rewrite (proj2 (Nat.ltb_lt i (8 * _))) by lia. reflexivity.
Qed.
Lemma cipher_is E P key pt : is_ciphertext E P key pt (cipher E P key pt) /\ length (cipher E P key pt) = stateSizeBytes P /\ bytes_ok (cipher E P key pt).
Proof.
  unfold cipher. destruct (pack_spec (stateSizeBytes P) (fun i => if i <? stateSizeBits P then lowmc_enc (lowmc_of E P) (bit key) (bit pt) i else false)) as (A & B & C).
  split; [|split; [exact A|exact B]]. intros i Hi. rewrite C, (proj2 (Nat.ltb_lt i _) Hi). reflexivity.
Qed.

(** What a signer holds: tapes, mask, masked key, public key. *)
Lemma signer_case U E P tl0 key pt : locals_ok U -> wfP3 P -> env_bytes_ok E -> constants_ok E P -> inverses_ok E P -> length tl0 = 16 ->
  (forall i, i < 16 -> length (nth i tl0 []) = 2 * andSizeBytes P /\ bytes_ok (nth i tl0 [])) -> bytes_ok pt -> length pt = 4 * stateSizeWords P ->
  exists tl msk mk pub, preprocessed U E P tl msk /\ (forall i, i < 15 -> nth i tl [] = nth i tl0 []) /\ masks P msk key mk /\ is_ciphertext E P key pt pub /\
    online_call E P (online_start E P tl (zero_msgs P) None mk pt pub) tl (zero_msgs P) None mk pt pub msg_ptr (35, 0) /\
    length mk = 4 * stateSizeWords P /\ length pub = stateSizeBytes P.
Proof.
  intros HU H3 HE HC HI L0 H0 Bp Lp. destruct (preprocessed_case U E P tl0 HU H3 HE HC HI L0 H0) as (tl & msk & A1 & A2 & A3 & A4 & A5 & A6).
  destruct (masked_masks P msk key H3) as (M1 & M2 & M3). destruct (cipher_is E P key pt) as (C1 & C2 & C3).
  exists tl, msk, (masked P msk key), (cipher E P key pt). split; [exact A1|]. split; [exact A6|]. split; [exact M1|]. split; [exact C1|].
  split; [|split; [exact M2|exact C2]]. pose proof (wf_W2 P (w3_wfP P H3)) as B2. destruct (zero_msgs_rows P) as [Z1 Z2].
  apply online_start_call; [exact HC|exact A2|exact A3|exact Z1|exact Z2|discriminate|exact M3|lia|exact Bp|lia|exact C3|lia].
Qed.

(** What a verifier holds after a run of the signer; the tape of the unopened party is filled with zeros. *)
Lemma replays_case U E P st tl mk pt pub qm qs u : locals_ok U -> wfP3 P -> env_bytes_ok E -> constants_ok E P -> u < 16 ->
  online_call E P st tl (zero_msgs P) None mk pt pub qm qs ->
  exists st' t ml2, run U (c_simulateOnline P 0 (P0 0) 1 2 3 (P0 4) (P0 5) 6 7 8 0 1 2 3) st = Some (st', t) /\
    let tl2 := list_set tl u (zeros (2 * andSizeBytes P)) in
    online_call E P (online_start E P tl2 ml2 (Some u) mk pt pub) tl2 ml2 (Some u) mk pt pub msg_ptr (35, 0) /\
    (forall i, i < 16 -> i <> u -> nth i tl2 [] = nth i tl [] /\ nth i ml2 [] = zeros (andSizeBytes P)) /\
    pts (nx st) (mm st') (qm u) (nth u ml2 []).
Proof.
  intros HU HP HE HC Hu HM. destruct (online_run U E P st tl (zero_msgs P) None mk pt pub qm qs HU HP HE HC HM) as (st' & t & Hr & _ & HQ).
  pose proof (omsgs_rows E P tl None (zero_msgs P) (bit mk) (bit pt)) as [LM HMr]. set (ms := omsgs _ _ _ _ _ _ _) in *.
  pose proof (on_rows E P st tl (zero_msgs P) None mk pt pub qm qs HM) as [LR HR]. destruct (zero_msgs_rows P) as [Z1 Z2].
  assert (Zn : forall i, i < 16 -> nth i (zero_msgs P) [] = zeros (andSizeBytes P)) by (intros i Hi; apply nth_repeat_lt, Hi).
  assert (G : forall (x y : list bytes) v i, length x = 16 -> i < 16 -> nth i (list_set x u v) [] = if i =? u then v else nth i x []).
  { intros x y v i Lx Hi. rewrite nth_list_set by (rewrite Lx; exact Hu). reflexivity. }
  exists st', t, (list_set (zero_msgs P) u (nth u ms [])). split; [exact Hr|]. cbv zeta. split; [|split].
  - pose proof HM as [_ _ _ (qk & _ & (_ & Bk & _) & _ & Lk) _ _ _ (qp & _ & (_ & Bp & _) & _ & Lp) (qb & _ & (_ & Bb & _) & Lb) _ _ _ _].
    apply online_start_call; [exact HC|rewrite length_list_set; exact LR| |rewrite length_list_set; exact Z1| |intros v Hv; injection Hv as <-; exact Hu|exact Bk|exact Lk|exact Bp|exact Lp|exact Bb|exact Lb].
    + intros i Hi. rewrite (G tl tl _ i LR Hi). destruct (i =? u); [split; [apply length_zeros|apply bytes_ok_zeros]|]. apply HR, Hi.
    + intros i Hi. rewrite (G (zero_msgs P) tl _ i Z1 Hi). destruct (i =? u); [apply HMr, Hu|]. apply Z2, Hi.
  - intros i Hi Hne. rewrite (G tl tl _ i LR Hi), (G (zero_msgs P) tl _ i Z1 Hi), (proj2 (Nat.eqb_neq i u) Hne). split; [reflexivity|]. apply Zn, Hi.
  - rewrite (G (zero_msgs P) tl _ u Z1 Hu), Nat.eqb_refl. apply HQ, Hu.
Qed.
