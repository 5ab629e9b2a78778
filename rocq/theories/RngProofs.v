(** Proofs about the default source of random bytes. *)

From Coq Require Import List NArith ZArith Arith Bool Lia ZifyBool ZifyNat ZifyN.
From Verif Require Import Base Params Env Spec LowMC Api Rng RngSpec BaseFacts ParamFacts ZkbCodec ApiSpec LowMCFacts ApiFacts.
Import ListNotations.


Lemma random_bytes_default_spec o w buf len w' r buf' : len <= length buf -> random_bytes_default o w buf len = (w', r, buf') ->
  length buf' = length buf /\ skipn len buf' = skipn len buf /\ attempts w' = S (attempts w) /\
  (grants o w len -> r = 0%Z /\ firstn len buf' = firstn len (os_read o (attempts w) len) /\ opened w' = opened w) /\
  (~ grants o w len -> r <> 0%Z /\ opened w <= opened w' <= S (opened w)).
Proof.
  intros Hl H. unfold random_bytes_default in H. unfold grants.
  destruct ((os_limit o <=? opened w) || os_refuses o (attempts w)) eqn:E1.
  - injection H as <- <- <-. cbn [opened attempts]. split; [reflexivity|]. split; [reflexivity|]. split; [reflexivity|]. split.
    + intros (A & B & _). rewrite B, orb_false_r in E1. lia.
    + intros _. split; [discriminate|lia].
  - apply orb_false_iff in E1. destruct E1 as [E1 E2]. pose proof (firstn_length len (os_read o (attempts w) len)) as Ld. set (d := firstn len _) in *.
    assert (La : length (d ++ skipn (length d) buf) = length buf) by (rewrite app_length, skipn_length; lia).
    assert (Sa : skipn len (d ++ skipn (length d) buf) = skipn len buf).
    { rewrite skipn_app, (skipn_all2 d) by lia. cbn [app]. rewrite skipn_skipn. f_equal. lia. }
    destruct (Nat.eqb_spec (length d) len) as [E3|E3]; cbn [negb] in H; injection H as <- <- <-; cbn [opened attempts];
      (split; [exact La|]); (split; [exact Sa|]); (split; [reflexivity|]); split.
    + intros _. split; [reflexivity|]. split; [|reflexivity]. rewrite firstn_app, E3, Nat.sub_diag. cbn [firstn]. rewrite app_nil_r. apply firstn_all2. lia.
    + intros A. exfalso. apply A. split; [lia|]. split; [exact E2|lia].
    + intros (_ & _ & A). lia.
    + intros _. split; [discriminate|lia].
Qed.

(** The process after one call. *)
Definition after (o : os) (w : process) (n : nat) : process := fst (fst (random_bytes_default o w (zeros n) n)).

Lemma zeros_len n : length (zeros n) = n.
Proof. apply repeat_length. Qed.
Lemma zeros_ok n : bytes_ok (zeros n).
Proof. apply Forall_forall. intros x Hx. apply repeat_spec in Hx. subst x. reflexivity. Qed.

Lemma grants_dec o w n : grants o w n \/ ~ grants o w n.
Proof.
  unfold grants. destruct (le_lt_dec (os_limit o) (opened w)); [right; lia|]. destruct (os_refuses o (attempts w)); [right; intros (_ & A & _); discriminate|].
  destruct (le_lt_dec n (length (os_read o (attempts w) n))); [left|right]; lia || auto.
Qed.

Lemma delivered_spec o w n : os_bytes_ok o ->
  length (snd (delivered o w n)) = n /\ bytes_ok (snd (delivered o w n)) /\ (fst (delivered o w n) = true <-> grants o w n) /\
  (grants o w n -> snd (delivered o w n) = firstn n (os_read o (attempts w) n)) /\
  opened w <= opened (after o w n) <= S (opened w) /\ (grants o w n -> opened (after o w n) = opened w) /\
  attempts (after o w n) = S (attempts w) /\
  (opened (after o w n) = S (opened w) <-> opened w < os_limit o /\ os_refuses o (attempts w) = false /\ length (os_read o (attempts w) n) < n).
Proof.
  intros Ho.
  assert (B : bytes_ok (snd (delivered o w n))).
  { unfold delivered, random_bytes_default. destruct ((os_limit o <=? opened w) || os_refuses o (attempts w)); [apply zeros_ok|].
    destruct (negb _); cbn [snd]; (apply Forall_app; split; [apply Forall_firstn, Ho|apply Forall_skipn, zeros_ok]). }
  assert (S : opened (after o w n) = S (opened w) <-> opened w < os_limit o /\ os_refuses o (attempts w) = false /\ length (os_read o (attempts w) n) < n).
  { unfold after, random_bytes_default. destruct (Nat.leb_spec (os_limit o) (opened w)); cbn [orb]; [cbn; lia|].
    destruct (os_refuses o (attempts w)). { cbn. split; [lia|]. intros (_ & A & _). discriminate. }
    rewrite firstn_length. destruct (Nat.eqb_spec (Nat.min n (length (os_read o (attempts w) n))) n); cbn; [lia|]. split; [|lia]. intros _. split; [exact H|]. split; [reflexivity|lia]. }
  unfold delivered, after in *. destruct (random_bytes_default o w (zeros n) n) as [[w' r] b] eqn:E. cbn [fst snd] in *.
  apply random_bytes_default_spec in E; [|rewrite zeros_len; lia]. destruct E as (E1 & E2 & E3 & E4 & E5). rewrite zeros_len in E1.
  split; [exact E1|]. split; [exact B|].
  destruct (grants_dec o w n) as [G|G].
  - destruct (E4 G) as (A1 & A2 & A3). subst r. split; [split; [intros _; exact G|reflexivity]|]. split; [intros _; rewrite <- A2; symmetry; apply firstn_all2; lia|].
    split; [lia|]. split; [intros _; exact A3|]. split; [exact E3|exact S].
  - destruct (E5 G) as (A1 & A2). split; [split; [intros F; apply Z.eqb_eq in F; contradiction|contradiction]|]. split; [contradiction|].
    split; [exact A2|]. split; [contradiction|]. split; [exact E3|exact S].
Qed.

Lemma rng_of_1 o w n : rng_of o w 1 n = delivered o (after o w n) n.
Proof. unfold rng_of, after. destruct (random_bytes_default o w (zeros n) n) as [[w' r] b]. reflexivity. Qed.

Lemma rng_of_wf o w : os_bytes_ok o -> rng_wf (rng_of o w).
Proof.
  intros Ho i n. destruct i as [|i].
  - destruct (delivered_spec o w n Ho) as (A & B & _). split; [exact A|exact B].
  - change (rng_of o w (S i) n) with (rng_of o w 1 n). rewrite rng_of_1. destruct (delivered_spec o (after o w n) n Ho) as (A & B & _). split; [exact A|exact B].
Qed.

(** The secret key and the plaintext are the bits that the source returned. *)
Lemma random_bits P r : wfP P -> length r = stateSizeBytes P -> 
  ok (data <- blit zero_block 0 r ;; zeroTrailingBits data (stateSizeBits P)) (fun d => forall i, i < stateSizeBits P -> bit d i = bit r i).
Proof.
  intros HP Hl. destruct (wfP_block P HP) as [_ Hn]. rewrite (blit_zero_block r _ Hl Hn). cbn [bind]. pose proof HP as Hw. destruct Hw.
  eapply ok_mono; [apply zeroTrailingBits_spec; rewrite app_length, zeros_len; lia|]. intros d (_ & _ & Hd) i Hi. rewrite Hd.
  replace (stateSizeBits P <=? i) with false by lia. cbn [andb]. apply bit_app1. pose proof (numBytes_spec (stateSizeBits P)). lia.
Qed.

Lemma keygen_bits E rng p pk0 sk0 r pk sk P : rng_wf rng -> get_param_set p = Some P ->
  picnic_keygen E rng p pk0 sk0 = Ok (r, pk, sk) -> r = true ->
  forall i, i < stateSizeBits P -> bit (sk_data sk) i = bit (snd (rng 0 (stateSizeBytes P))) i /\ bit (pk_plaintext pk) i = bit (snd (rng 1 (stateSizeBytes P))) i.
Proof.
  intros Hrng HP H Hr i Hi. subst r. unfold picnic_keygen in H. pose proof (get_param_set_wfP _ _ HP) as Hw.
  destruct (get_param_set_byte _ _ HP) as [_ Hv]. rewrite Hv, HP in H. cbn [negb] in H.
  destruct (Hrng 0 (stateSizeBytes P)) as [L1 _]. destruct (Hrng 1 (stateSizeBytes P)) as [L2 _].
  destruct (rng 0 (stateSizeBytes P)) as [ok1 r1]. destruct (rng 1 (stateSizeBytes P)) as [ok2 r2]. cbn [fst snd] in *.
  pose proof (random_bits P r1 Hw L1) as B1. pose proof (random_bits P r2 Hw L2) as B2.
  destruct (blit zero_block 0 r1) as [d1| | |]; try contradiction. cbn [bind] in *. destruct ok1; cbn [negb] in H; [|discriminate].
  destruct (zeroTrailingBits d1 _) as [d1'| | |]; try contradiction. cbn [bind ok] in *.
  destruct (blit zero_block 0 r2) as [d2| | |]; try contradiction. cbn [bind] in *. destruct ok2; cbn [negb] in H; [|discriminate].
  destruct (zeroTrailingBits d2 _) as [d2'| | |]; try contradiction. cbn [bind ok] in *.
  destruct (LowMCEnc _ _ _ _ _) as [ct| | |]; try discriminate. injection H as <- <-. cbn [sk_data pk_plaintext]. auto.
Qed.

Lemma keygen_process_eq o w p P : get_param_set p = Some P ->
  keygen_process o w p = if fst (delivered o w (stateSizeBytes P)) then after o (after o w (stateSizeBytes P)) (stateSizeBytes P) else after o w (stateSizeBytes P).
Proof.
  intros HP. unfold keygen_process. destruct (get_param_set_byte _ _ HP) as [_ Hv]. rewrite Hv, HP. cbn [negb]. unfold delivered, after.
  destruct (random_bytes_default o w _ _) as [[w1 r1] b1]. cbn [fst]. destruct (Z.eqb r1 0); cbn [negb]; [|reflexivity].
  destruct (random_bytes_default o w1 _ _) as [[w2 r2] b2]. reflexivity.
Qed.

Theorem keygen_default E o w p P pk0 sk0 : env_bytes_ok E -> get_param_set p = Some P -> constants_ok E P -> os_bytes_ok o ->
  let n := stateSizeBytes P in let w1 := mkProc (opened w) (S (attempts w)) in let w' := keygen_process o w p in
  exists r pk sk, picnic_keygen E (rng_of o w) p pk0 sk0 = Ok (r, pk, sk) /\
    (r = true <-> grants o w n /\ grants o w1 n) /\
    (r = true -> opened w' = opened w /\
       lowmc_relation E P (sk_data sk) (pk_plaintext pk) (pk_ciphertext pk) /\
       forall i, i < stateSizeBits P ->
         bit (sk_data sk) i = bit (os_read o (attempts w) n) i /\ bit (pk_plaintext pk) i = bit (os_read o (S (attempts w)) n) i).
Proof.
  intros HE HP HC Ho n w1 w'. subst w'.
  assert (HC' : forall P', get_param_set p = Some P' -> constants_ok E P') by (intros P' HP'; rewrite HP in HP'; injection HP' as <-; exact HC).
  pose proof (keygen_spec E HE (rng_of o w) p pk0 sk0 HC' (rng_of_wf o w Ho)) as H.
  destruct (picnic_keygen E (rng_of o w) p pk0 sk0) as [[[r pk] sk]| | |] eqn:K; try contradiction. cbn [ok] in H. rewrite HP in H. destruct H as [Hr H].
  rewrite rng_of_1 in Hr. change (rng_of o w 0 (stateSizeBytes P)) with (delivered o w (stateSizeBytes P)) in Hr. fold n in Hr.
  exists r, pk, sk. split; [reflexivity|].
  destruct (delivered_spec o w n Ho) as (_ & _ & G1 & D1 & _ & O1 & T1 & _). destruct (delivered_spec o (after o w n) n Ho) as (_ & _ & G2 & D2 & _ & O2 & T2 & _).
  assert (W1 : grants o w n -> after o w n = w1).
  { intros G. specialize (O1 G). destruct (after o w n) as [a b]. cbn in O1, T1. subst. reflexivity. }
  assert (R : r = true <-> grants o w n /\ grants o w1 n).
  { rewrite Hr, andb_true_iff, G1, G2. split; intros [A B]; (split; [exact A|]); rewrite (W1 A) in *; exact B. }
  split; [exact R|]. intros T. pose proof (proj1 R T) as [A B]. rewrite (keygen_process_eq o w p P HP). fold n. rewrite (proj2 G1 A).
  rewrite (W1 A) in *. split; [rewrite (O2 B); reflexivity|].
  destruct (H T) as (P' & HP' & _ & _ & _ & _ & _ & HL & _). injection HP' as <-. split; [exact HL|].
  intros i Hi. destruct (keygen_bits E _ p pk0 sk0 r pk sk P (rng_of_wf o w Ho) HP K T i Hi) as [X Y]. fold n in X, Y. rewrite rng_of_1, (W1 A), (D2 B) in Y.
  change (rng_of o w 0 n) with (delivered o w n) in X. rewrite (D1 A) in X. pose proof (get_param_set_wfP _ _ HP) as Hw. destruct Hw.
  assert (Hi8 : i < 8 * n) by (unfold n; pose proof (numBytes_spec (stateSizeBits P)); lia). rewrite bit_firstn in X, Y by exact Hi8. auto.
Qed.

(** A failing key generation may leave a file open: exactly if the failing read was short. *)
Theorem keygen_leaves_open o w p P : get_param_set p = Some P -> os_bytes_ok o ->
  let n := stateSizeBytes P in let w1 := mkProc (opened w) (S (attempts w)) in
  opened (keygen_process o w p) = opened w \/
  opened (keygen_process o w p) = S (opened w) /\ (cut_short o w n \/ grants o w n /\ cut_short o w1 n).
Proof.
  intros HP Ho n w1. rewrite (keygen_process_eq o w p P HP). fold n.
  destruct (delivered_spec o w n Ho) as (_ & _ & G1 & _ & R1 & O1 & T1 & S1). destruct (delivered_spec o (after o w n) n Ho) as (_ & _ & _ & _ & R2 & _ & _ & S2).
  destruct (fst (delivered o w n)).
  - pose proof (proj1 G1 eq_refl) as G. specialize (O1 G).
    assert (W1 : after o w n = w1) by (destruct (after o w n) as [a b]; cbn in O1, T1; subst; reflexivity).
    rewrite W1 in *. change (opened w1) with (opened w) in *. destruct (Nat.eq_dec (opened (after o w1 n)) (S (opened w))) as [F|F]; [|left; lia].
    right. split; [exact F|]. right. split; [exact G|]. unfold cut_short. change (opened w1) with (opened w). exact (proj1 S2 F).
  - destruct (Nat.eq_dec (opened (after o w n)) (S (opened w))) as [F|F]; [|left; lia]. right. split; [exact F|]. left. unfold cut_short. exact (proj1 S1 F).
Qed.


Lemma starved_step o w p P : get_param_set p = Some P -> os_bytes_ok o -> starved o -> opened w <= os_limit o ->
  opened (keygen_process o w p) = Nat.min (os_limit o) (S (opened w)).
Proof.
  intros HP Ho [S1 S2] Hw. rewrite (keygen_process_eq o w p P HP). set (n := stateSizeBytes P).
  assert (Hn : 0 < n) by (pose proof (get_param_set_wfP _ _ HP) as Hf; destruct Hf; unfold n; pose proof (numBytes_spec (stateSizeBits P)); lia).
  destruct (delivered_spec o w n Ho) as (_ & _ & G1 & _ & R1 & O1 & T1 & F1). destruct (fst (delivered o w n)).
  - destruct (proj1 G1 eq_refl) as (_ & _ & A). specialize (S2 (attempts w) n Hn). lia.
  - destruct (le_lt_dec (os_limit o) (opened w)) as [L|L].
    + destruct (Nat.eq_dec (opened (after o w n)) (S (opened w))) as [X|X]; [apply F1 in X; lia|lia].
    + rewrite (proj2 F1) by (split; [exact L|split; [apply S1|apply S2, Hn]]). lia.
Qed.

Lemma starved_steps o p P : get_param_set p = Some P -> os_bytes_ok o -> starved o -> forall k w, opened w <= os_limit o ->
  opened (keygens o w p k) = Nat.min (os_limit o) (k + opened w).
Proof.
  intros HP Ho HS. induction k as [|k IH]; intros w Hw; cbn [keygens]; [lia|].
  rewrite IH; rewrite (starved_step o w p P HP Ho HS Hw); lia.
Qed.

(** After enough short reads key generation fails for good, whatever the system delivers from then on. *)
Theorem keygen_exhausts E o o' w p P q pk0 sk0 k : env_bytes_ok E -> get_param_set p = Some P -> (forall Q, get_param_set q = Some Q -> constants_ok E Q) ->
  os_bytes_ok o -> os_bytes_ok o' -> os_limit o' = os_limit o -> starved o -> opened w <= os_limit o -> os_limit o <= k + opened w ->
  exists pk sk, picnic_keygen E (rng_of o' (keygens o w p k)) q pk0 sk0 = Ok (false, pk, sk).
Proof.
  intros HE HP HC Ho Ho' HL HS Hw Hk. set (v := keygens o w p k).
  assert (Hv : opened v = os_limit o') by (unfold v; rewrite (starved_steps o p P HP Ho HS k w Hw); lia).
  destruct (get_param_set q) as [Q|] eqn:HQ.
  - destruct (keygen_default E o' v q Q pk0 sk0 HE HQ (HC Q eq_refl) Ho') as (r & pk & sk & K & R & _). exists pk, sk. rewrite K. destruct r; [|reflexivity].
    destruct (proj1 R eq_refl) as [(G & _) _]. lia.
  - unfold picnic_keygen. destruct (is_valid_params q); cbn [negb]; [rewrite HQ|]; do 2 eexists; reflexivity.
Qed.
