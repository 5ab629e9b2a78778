(** Keys on memory against their encodings, and memories in which the programs can be called. *)

From Coq Require Import List NArith Arith Bool Lia.
From Verif Require Import Base Params Env Spec LowMC MiniC CodeLowMC CodeSpec CodeZkbSpec CodeKeys CodeKeysSpec Api ApiSpec
  BaseFacts ParamFacts ApiFacts ApiProofs1 CodeRules CodeWitness CodeKeysProofs.
Import ListNotations.

Theorem write_public_code U P st qb buf len key : get_param_set (pk_params key) = Some P -> pk_wf key ->
  write_call st qb buf len [pk_ciphertext key; pk_plaintext key] ->
  exists st' t, run U (c_write_key (pk_params key) P 2) st = Some (st', t) /\ nx st' = nx st /\ chg (nx st) (mm st) (mm st') [(qb, length buf)] /\
    if len <? 1 + 2 * stateSizeBytes P then iv st' 5 = 0 /\ holds st' qb buf
    else iv st' 5 = 1 + 2 * stateSizeBytes P /\ holds st' qb (pk_encoding P key ++ skipn (1 + 2 * stateSizeBytes P) buf).
Proof.
  intros HP HW HM. destruct (write_public_key_code U P st qb buf len key HP HW HM) as (z & t & r & b & R1 & R2 & R3 & R4 & R5 & R6).
  exists z, t. split; [exact R1|]. split; [exact R2|]. split; [exact R3|]. destruct (wk_buf _ _ _ _ _ HM) as (_ & _ & Hl).
  destruct (len <? 1 + 2 * stateSizeBytes P) eqn:El.
  - unfold picnic_write_public_key in R4. rewrite HP, El in R4. injection R4 as <- <-. auto.
  - apply Nat.ltb_ge in El. pose proof (eq_trans (eq_sym R4) (write_public_key_spec key P buf len HP HW Hl El)) as X. injection X as -> ->. auto.
Qed.

Theorem write_private_code U P st qb buf len key : get_param_set (sk_params key) = Some P -> sk_wf key ->
  write_call st qb buf len [sk_data key; pk_ciphertext (sk_pk key); pk_plaintext (sk_pk key)] ->
  exists st' t, run U (c_write_key (sk_params key) P 3) st = Some (st', t) /\ nx st' = nx st /\ chg (nx st) (mm st) (mm st') [(qb, length buf)] /\
    if len <? 1 + 3 * stateSizeBytes P then iv st' 5 = 0 /\ holds st' qb buf
    else iv st' 5 = 1 + 3 * stateSizeBytes P /\ holds st' qb (sk_encoding P key ++ skipn (1 + 3 * stateSizeBytes P) buf).
Proof.
  intros HP HW HM. destruct (write_private_key_code U P st qb buf len key HP HW HM) as (z & t & r & b & R1 & R2 & R3 & R4 & R5 & R6).
  exists z, t. split; [exact R1|]. split; [exact R2|]. split; [exact R3|]. destruct (wk_buf _ _ _ _ _ HM) as (_ & _ & Hl).
  destruct (len <? 1 + 3 * stateSizeBytes P) eqn:El.
  - unfold picnic_write_private_key in R4. rewrite HP, El in R4. injection R4 as <- <-. auto.
  - apply Nat.ltb_ge in El. pose proof (eq_trans (eq_sym R4) (write_private_key_spec key P buf len HP HW Hl El)) as X. injection X as -> ->. auto.
Qed.

Theorem read_public_code U st q qb buf key : pk_wf key ->
  read_call st q qb buf [pk_ciphertext key; pk_plaintext key] -> iv st 7 = N.to_nat (pk_params key) ->
  exists st' t k, run U (c_read_key 2 false) st = Some (st', t) /\ nx st' = nx st /\ chg (nx st) (mm st) (mm st') (arrays q 2) /\
    iv st' 7 = N.to_nat (pk_params k) /\ holds st' (q 0) (pk_ciphertext k) /\ holds st' (q 1) (pk_plaintext k) /\ pk_wf k /\
    ((iv st' 5 = 0 /\ ~ starts_with_pk buf) \/
     (iv st' 5 = 1 /\ starts_with_pk buf /\ exists P, get_param_set (pk_params k) = Some P /\ pk_padding_zero P k /\
        buf = pk_encoding P k ++ skipn (1 + 2 * stateSizeBytes P) buf /\
        skipn (stateSizeBytes P) (pk_plaintext k) = skipn (stateSizeBytes P) (pk_plaintext key) /\
        skipn (stateSizeBytes P) (pk_ciphertext k) = skipn (stateSizeBytes P) (pk_ciphertext key))).
Proof.
  intros HW HM I7. destruct (read_public_key_code U st q qb buf key HW HM I7) as (z & t & r & k & R1 & R2 & R3 & R4 & R5 & R6 & R7 & R8).
  pose proof (read_public_key_spec key buf HW) as S. rewrite R4 in S. cbn [ok] in S. destruct S as (k' & E & S1 & S2 & S3). injection E as <-.
  exists z, t, k. split; [exact R1|]. split; [exact R2|]. split; [exact R3|]. split; [exact R6|]. split; [exact R7|]. split; [exact R8|].
  split; [apply S1, (rk_buf _ _ _ _ _ HM)|]. destruct r.
  - right. split; [exact R5|]. split; [apply S2; reflexivity|]. destruct (S3 eq_refl) as (P & T1 & T2 & T3 & T4 & T5). exists P. auto.
  - left. split; [exact R5|]. intros H. apply S2 in H. discriminate H.
Qed.

Theorem read_private_code U st q qb buf key : sk_wf key ->
  read_call st q qb buf [sk_data key; pk_ciphertext (sk_pk key); pk_plaintext (sk_pk key)] ->
  iv st 7 = N.to_nat (sk_params key) -> iv st 8 = N.to_nat (pk_params (sk_pk key)) ->
  exists st' t k, run U (c_read_key 3 true) st = Some (st', t) /\ nx st' = nx st /\ chg (nx st) (mm st) (mm st') (arrays q 3) /\
    iv st' 7 = N.to_nat (sk_params k) /\ iv st' 8 = N.to_nat (pk_params (sk_pk k)) /\
    holds st' (q 0) (sk_data k) /\ holds st' (q 1) (pk_ciphertext (sk_pk k)) /\ holds st' (q 2) (pk_plaintext (sk_pk k)) /\ sk_wf k /\
    ((iv st' 5 = 0 /\ ~ starts_with_sk buf) \/
     (iv st' 5 = 1 /\ starts_with_sk buf /\ exists P, get_param_set (sk_params k) = Some P /\ sk_padding_zero P k /\ pk_params (sk_pk k) = sk_params k /\
        buf = sk_encoding P k ++ skipn (1 + 3 * stateSizeBytes P) buf /\
        skipn (stateSizeBytes P) (sk_data k) = zeros (32 - stateSizeBytes P) /\
        skipn (stateSizeBytes P) (pk_plaintext (sk_pk k)) = zeros (32 - stateSizeBytes P) /\
        skipn (stateSizeBytes P) (pk_ciphertext (sk_pk k)) = zeros (32 - stateSizeBytes P))).
Proof.
  intros HW HM I7 I8. destruct (read_private_key_code U st q qb buf key HW HM I7 I8) as (z & t & r & k & R1 & R2 & R3 & R4 & R5 & R6 & R6' & R7 & R8 & R9).
  pose proof (read_private_key_spec key buf) as S. rewrite R4 in S. cbn [ok] in S. destruct S as (k' & E & S1 & S2 & S3). injection E as <-.
  exists z, t, k. split; [exact R1|]. split; [exact R2|]. split; [exact R3|]. split; [exact R6|]. split; [exact R6'|]. split; [exact R7|]. split; [exact R8|]. split; [exact R9|].
  split; [apply S1; [apply (rk_buf _ _ _ _ _ HM)|exact HW]|]. destruct r.
  - right. split; [exact R5|]. split; [apply S2; reflexivity|]. destruct (S3 eq_refl) as (P & T1 & T2 & T3 & T4 & T5 & T6 & T7). exists P. auto 8.
  - left. split; [exact R5|]. intros H. apply S2 in H. discriminate H.
Qed.

(** Written in one memory and read in another. *)
Theorem public_key_code_round_trip U P st qb buf len key : get_param_set (pk_params key) = Some P -> pk_wf key -> pk_padding_zero P key ->
  write_call st qb buf len [pk_ciphertext key; pk_plaintext key] -> 1 + 2 * stateSizeBytes P <= len ->
  exists st' t out, run U (c_write_key (pk_params key) P 2) st = Some (st', t) /\ iv st' 5 = 1 + 2 * stateSizeBytes P /\ holds st' qb out /\
    forall U2 st2 q q2 key2, pk_wf key2 -> read_call st2 q q2 out [pk_ciphertext key2; pk_plaintext key2] -> iv st2 7 = N.to_nat (pk_params key2) ->
    exists st2' t2 k, run U2 (c_read_key 2 false) st2 = Some (st2', t2) /\ iv st2' 5 = 1 /\ iv st2' 7 = N.to_nat (pk_params k) /\
      holds st2' (q 0) (pk_ciphertext k) /\ holds st2' (q 1) (pk_plaintext k) /\ pk_wf k /\ pk_same P k key.
Proof.
  intros HP HW HZ HM Hl. destruct (write_public_code U P st qb buf len key HP HW HM) as (z & t & R1 & _ & _ & R). rewrite (proj2 (Nat.ltb_ge _ _)) in R by exact Hl. destruct R as [R5 R6].
  destruct (wk_buf _ _ _ _ _ HM) as (_ & [_ Bb] & Hb).
  exists z, t. eexists. split; [exact R1|]. split; [exact R5|]. split; [exact R6|]. intros U2 st2 q q2 key2 HW2 HM2 I7.
  destruct (read_public_key_code U2 st2 q q2 _ key2 HW2 HM2 I7) as (z2 & t2 & r & k & S1 & _ & _ & S4 & S5 & S6 & S7 & S8).
  destruct (C06_pf key P buf len key2 HP HW HZ Bb Hb Hl HW2) as (out & pk' & _ & -> & T1 & T2). rewrite T1 in S4. injection S4 as <- <-. exists z2, t2, pk'.
  pose proof (read_public_key_spec key2 (pk_encoding P key ++ skipn (1 + 2 * stateSizeBytes P) buf) HW2) as S. rewrite T1 in S. cbn [ok] in S. destruct S as (k' & E & S1' & _). injection E as <-.
  split; [exact S1|]. split; [exact S5|]. split; [exact S6|]. split; [exact S7|]. split; [exact S8|]. split; [|exact T2]. apply S1', (rk_buf _ _ _ _ _ HM2).
Qed.

Theorem private_key_code_round_trip U P st qb buf len key : get_param_set (sk_params key) = Some P -> sk_wf key -> sk_padding_zero P key ->
  write_call st qb buf len [sk_data key; pk_ciphertext (sk_pk key); pk_plaintext (sk_pk key)] -> 1 + 3 * stateSizeBytes P <= len ->
  let padded x := block P x ++ zeros (32 - stateSizeBytes P) in
  exists st' t out, run U (c_write_key (sk_params key) P 3) st = Some (st', t) /\ iv st' 5 = 1 + 3 * stateSizeBytes P /\ holds st' qb out /\
    forall U2 st2 q q2 key2, sk_wf key2 -> read_call st2 q q2 out [sk_data key2; pk_ciphertext (sk_pk key2); pk_plaintext (sk_pk key2)] ->
    iv st2 7 = N.to_nat (sk_params key2) -> iv st2 8 = N.to_nat (pk_params (sk_pk key2)) ->
    exists st2' t2, run U2 (c_read_key 3 true) st2 = Some (st2', t2) /\ iv st2' 5 = 1 /\ iv st2' 7 = N.to_nat (sk_params key) /\ iv st2' 8 = N.to_nat (sk_params key) /\
      holds st2' (q 0) (padded (sk_data key)) /\ holds st2' (q 1) (padded (pk_ciphertext (sk_pk key))) /\ holds st2' (q 2) (padded (pk_plaintext (sk_pk key))).
Proof.
  intros HP HW HZ HM Hl padded. destruct (write_private_code U P st qb buf len key HP HW HM) as (z & t & R1 & _ & _ & R). rewrite (proj2 (Nat.ltb_ge _ _)) in R by exact Hl. destruct R as [R5 R6].
  destruct (wk_buf _ _ _ _ _ HM) as (_ & [_ Bb] & Hb).
  exists z, t. eexists. split; [exact R1|]. split; [exact R5|]. split; [exact R6|]. intros U2 st2 q q2 key2 HW2 HM2 I7 I8.
  destruct (read_private_key_code U2 st2 q q2 _ key2 HW2 HM2 I7 I8) as (z2 & t2 & r & k & S1 & _ & _ & S4 & S5 & S6 & S6' & S7 & S8 & S9).
  destruct (C07_pf key P buf len key2 HP HW HZ Bb Hb Hl HW2) as (out & sk' & _ & -> & T1 & T2 & T3 & T4 & T5 & T6). rewrite T1 in S4. injection S4 as <- <-.
  exists z2, t2. rewrite T2 in S6. rewrite T3 in S6'. rewrite T4 in S7. rewrite T6 in S8. rewrite T5 in S9. auto 8.
Qed.

Theorem validate_code_is U E P st sk pk : locals_ok U -> env_bytes_ok E -> get_param_set (pk_params pk) = Some P -> constants_ok E P ->
  sk_wf sk -> pk_wf pk -> validate_call E P st sk pk ->
  exists st' t, run U (c_validate P) st = Some (st', t) /\ nx st' = nx st /\ chg (nx st) (mm st) (mm st') [] /\
    (iv st' 5 = 0 \/ iv st' 5 = 1) /\
    (iv st' 5 = 1 <-> sk_params sk = pk_params pk /\ lowmc_relation E P (sk_data sk) (pk_plaintext pk) (pk_ciphertext pk)).
Proof.
  intros HU HE HP HC HS HW HM. destruct (validate_code U E P st sk pk HU HE HP HC HS HW HM) as (z & t & r & R1 & R2 & R3 & R4 & R5).
  pose proof (validate_spec E HE sk pk P HP HC HS HW) as S. rewrite R4 in S. cbn [ok] in S.
  exists z, t. split; [exact R1|]. split; [exact R2|]. split; [exact R3|]. rewrite R5. rewrite <- S. destruct r; split; auto; split; auto; discriminate.
Qed.

(** Memories: the arrays in blocks of their own, then the bytes. *)
Definition key_memory (ls : list bytes) (buf : bytes) : memory := fun b => if b <? length ls then nth b ls [] else if b =? length ls then buf else [].
Definition key_state (ls : list bytes) (buf : bytes) (len p : nat) : state :=
  mkState (fun x => if x =? 0 then len else p) (fun _ => 0%N) (args [] [[(length ls, 0)]; places 0 (length ls)]) (key_memory ls buf) (S (length ls)) 0.

Lemma key_array ls buf len p j l : nth_error ls j = Some l -> bytes_ok l ->
  j < length ls /\ nth_error (pv (key_state ls buf len p) 1) j = Some (j, 0) /\ holds (key_state ls buf len p) (j, 0) l.
Proof.
  intros E B. assert (Hj : j < length ls) by (apply nth_error_Some; congruence). split; [exact Hj|]. unfold key_state, holds. cbn [pv nx mm args nth].
  split; [apply (nth_places 0), Hj|]. split; [|exact B]. apply pts_block; [lia|]. unfold key_memory. rewrite (proj2 (Nat.ltb_lt _ _)) by exact Hj. apply nth_error_nth with (d := []) in E. exact E.
Qed.
Lemma key_bytes ls buf len p : bytes_ok buf -> holds (key_state ls buf len p) (length ls, 0) buf.
Proof. intros B. unfold holds, key_state. cbn [nx mm]. split; [|exact B]. apply pts_block; [lia|]. unfold key_memory. rewrite Nat.ltb_irrefl, Nat.eqb_refl. reflexivity. Qed.

Lemma key_write_call ls buf len p : bytes_ok buf -> len <= length buf -> (forall j l, nth_error ls j = Some l -> bytes_ok l) ->
  write_call (key_state ls buf len p) (length ls, 0) buf len ls.
Proof.
  intros Bb Hl Bl. split; [reflexivity| |].
  - split; [reflexivity|]. split; [apply key_bytes, Bb|exact Hl].
  - intros j l E. destruct (key_array ls buf len p j l E (Bl j l E)) as (A1 & A2 & A3 & A4). exists (j, 0). split; [exact A2|]. split; [exact A3|]. split; [exact A4|].
    intros q k [X|[]]. injection X as <- <-. left. cbn [fst]. lia.
Qed.
Lemma key_read_call ls buf p : bytes_ok buf -> (forall j l, nth_error ls j = Some l -> bytes_ok l) ->
  read_call (key_state ls buf (length buf) p) (fun j => (j, 0)) (length ls, 0) buf ls.
Proof.
  intros Bb Bl. destruct (key_bytes ls buf (length buf) p Bb) as [P1 _]. split; [reflexivity| | |].
  - split; [reflexivity|]. split; [exact P1|]. split; [exact Bb|]. intros q k X. unfold arrays in X. apply in_map_iff in X. destruct X as (j & X & Hj). injection X as <- <-. apply in_seq in Hj. left. cbn [fst]. lia.
  - intros i j p1 k1 p2 k2 E1 E2 Hne. unfold arrays in *.
    assert (F : forall i p k, nth_error (map (fun j => (j, 0, PICNIC_MAX_LOWMC_BLOCK_SIZE)) (seq 0 (length ls))) i = Some (p, k) -> p = (i, 0)).
    { intros i' p' k' X. rewrite nth_error_map in X. destruct (nth_error (seq 0 (length ls)) i') as [v|] eqn:Ev; [|discriminate X]. cbn in X. injection X as <- _.
      assert (Hi : i' < length (seq 0 (length ls))) by (apply nth_error_Some; congruence). rewrite seq_length in Hi. apply nth_error_nth with (d := 0) in Ev. rewrite seq_nth in Ev by exact Hi. rewrite <- Ev. reflexivity. }
    rewrite (F _ _ _ E1), (F _ _ _ E2). left. exact Hne.
  - intros j l E. destruct (key_array ls buf (length buf) p j l E (Bl j l E)) as (_ & A2 & A3). auto.
Qed.

(** The public key, the secret and the tables of LowMC in blocks of their own. *)
Definition validate_memory (E : env) (P : paramset) (sk : privatekey) (pk : publickey) : memory := fun b =>
  let R := numRounds P in
  match b with
  | 0 => pk_plaintext pk | 1 => sk_data sk | 2 => pk_ciphertext pk
  | S (S (S i)) => if i <? R + 1 then KMatrix E P i else if i <? R + 1 + R then LMatrix E P (i - (R + 1)) else
                   if i <? R + 1 + R + R then RConstant E P (i - (R + 1 + R)) else []
  end.
Definition validate_state (E : env) (P : paramset) (sk : privatekey) (pk : publickey) : state :=
  let R := numRounds P in
  mkState (fun x => if x =? 0 then N.to_nat (pk_params pk) else N.to_nat (sk_params sk)) (fun _ => 0%N)
    (args [] [[(0, 0)]; [(1, 0)]; places 3 (R + 1); places (3 + (R + 1)) R; places (3 + (R + 1 + R)) R; []; [(2, 0)]])
    (validate_memory E P sk pk) (3 + (R + 1 + R + R)) 0.
Lemma validate_called E P sk pk : constants_ok E P -> sk_wf sk -> pk_wf pk -> validate_call E P (validate_state E P sk pk) sk pk.
Proof.
  intros (BK & BL & BR) [[_ Bd] _] [[_ Bp] [_ Bc]]. unfold validate_state. split; cbn [iv pv args].
  - split; reflexivity.
  - exists (0, 0). split; [reflexivity|]. split; [apply pts_block; cbn [nx mm]; [lia|reflexivity]|exact Bp].
  - exists (1, 0). split; [reflexivity|]. split; [split; [apply pts_block; cbn [nx mm]; [lia|reflexivity]|exact Bd]|reflexivity].
  - exists (2, 0). split; [reflexivity|]. split; [apply pts_block; cbn [nx mm]; [lia|reflexivity]|exact Bc].
  - intros i Hi. exists (3 + i, 0). split; [apply nth_places, Hi|]. split; [|reflexivity]. split; [apply pts_block; cbn [nx mm]; [lia|]|split; [apply BK; lia|intros q k []]].
    cbn [Nat.add validate_memory]. rewrite (proj2 (Nat.ltb_lt i _)) by lia. reflexivity.
  - intros i Hi. exists (3 + (numRounds P + 1) + i, 0). split; [apply nth_places, Hi|]. split; [|reflexivity]. split; [apply pts_block; cbn [nx mm]; [lia|]|split; [apply BL; lia|intros q k []]].
    cbn [Nat.add validate_memory]. rewrite (proj2 (Nat.ltb_ge (numRounds P + 1 + i) (numRounds P + 1))) by lia.
    rewrite (proj2 (Nat.ltb_lt (numRounds P + 1 + i) (numRounds P + 1 + numRounds P))) by lia. f_equal. lia.
  - intros i Hi. exists (3 + (numRounds P + 1 + numRounds P) + i, 0). split; [apply nth_places, Hi|]. split; [|reflexivity]. split; [apply pts_block; cbn [nx mm]; [lia|]|split; [apply BR; lia|intros q k []]].
    cbn [Nat.add validate_memory]. set (R := numRounds P) in *. rewrite (proj2 (Nat.ltb_ge (R + 1 + R + i) (R + 1))) by lia.
    rewrite (proj2 (Nat.ltb_ge (R + 1 + R + i) (R + 1 + R))) by lia.
    rewrite (proj2 (Nat.ltb_lt (R + 1 + R + i) (R + 1 + R + R))) by lia. f_equal. lia.
Qed.
