(** The Keccak permutation on memory. *)

From Coq Require Import List NArith Arith Bool Lia ZifyBool ZifyNat ZifyN.
From Verif Require Import Base Params Env Spec MiniC CodeLowMC CodeKeccak CodeSpec Keccak KeccakSpec.
From Verif Require Import BaseFacts KeccakPerm KeccakSponge HashProofs P3Online MiniCFacts CodeRules CodeLowMCProofs CodeHeap CodeLanes.
Import ListNotations.

(** ** On lanes *)
Section T.
Variable G : nat -> nat -> nat -> N.
Definition call1 (A R : list N) (u : nat) := mkL (args 0 []) (args 0%N []) (args [] [[(0, 0)]]) [A; R] u.
Definition step_sim (body : stmt) (f : list N -> res (list N)) (k : nat) : Prop := forall A R u, length A = 25 ->
  option_map (fun b => (lmem b, lct b)) (lrun G body (call1 A R u)) = match f A with Ok v => Some ([v; R], k + u) | _ => None end.
Lemma theta_sim : step_sim theta_body theta 2.
Proof. intros A R u HL. lanes A HL. lazy -[N.lxor N.shiftl N.shiftr N.modulo N.land N.lnot]; reflexivity. Qed.
Lemma rho_sim : step_sim rho_body rho 0.
Proof. intros A R u HL. lanes A HL. lazy -[N.lxor N.shiftl N.shiftr N.modulo N.land N.lnot]; reflexivity. Qed.
Lemma pi_sim : step_sim pi_body pi 1.
Proof. intros A R u HL. lanes A HL. lazy -[N.lxor N.shiftl N.shiftr N.modulo N.land N.lnot]; reflexivity. Qed.
Lemma chi_sim : step_sim chi_body chi 1.
Proof. intros A R u HL. lanes A HL. lazy -[N.lxor N.shiftl N.shiftr N.modulo N.land N.lnot]; reflexivity. Qed.

Lemma call_sim body f k a A R v : step_sim body f k -> lmem a = [A; R] -> lpv a 0 = [(0, 0)] -> length A = 25 -> f A = Ok v ->
  lrun G (Call body [] [] [PL [P0 0]] [] []) a = Some (mkL (liv a) (ldv a) (lpv a) [v; R] (k + lct a)).
Proof.
  intros HS HM HP HL HF. specialize (HS A R (lct a) HL). unfold call1 in HS. rewrite HF in HS. cbn [lrun map]. unfold P0. cbn [pargevals pargeval pevals peval ieval]. rewrite HP, HM. cbn [nth_error].
  destruct (lrun G body _) as [b|]; [|discriminate]. cbn [option_map] in HS. injection HS as E1 E2. rewrite E1, E2. reflexivity.
Qed.

Lemma iota_sim a A i v : lmem a = [A; KeccakRoundConstants] -> lpv a 0 = [(0, 0)] -> lpv a 1 = [(1, 0)] -> length A = 25 -> liv a 0 = i -> i < 24 -> iota A i = Ok v ->
  lrun G (c_iota (P0 0) 1 (IV 0)) a = Some (mkL (liv a) (ldv a) (lpv a) [v; KeccakRoundConstants] (lct a)).
Proof.
  intros HM HP0 HP1 HL Hi Hlt HF. unfold c_iota. cbn [lrun map]. unfold P0. cbn [pargevals pargeval pevals peval ieval]. rewrite HP0, HP1, HM, Hi. cbn [nth_error].
  rewrite iota_eq in HF by assumption. lanes A HL. clear - HF Hlt.
  do 24 (destruct i as [|i]; [lazy -[N.lxor] in HF; injection HF as <-; lazy -[N.lxor]; reflexivity|]). lia.
Qed.

Lemma steps_len W : length W = 25 ->
  exists v1 v2 v3 v4, theta W = Ok v1 /\ length v1 = 25 /\ rho v1 = Ok v2 /\ length v2 = 25 /\ pi v2 = Ok v3 /\ length v3 = 25 /\ chi v3 = Ok v4 /\ length v4 = 25.
Proof.
  intros H. assert (L : forall f : nat -> N, length (map f (seq 0 25)) = 25) by (intros f; rewrite map_length, seq_length; reflexivity).
  eexists _, _, _, _. split; [apply theta_eq, H|]. split; [apply L|]. split; [apply rho_eq, L|]. split; [apply L|].
  split; [apply pi_eq, L|]. split; [apply L|]. split; [apply chi_eq, L|]. apply L.
Qed.

Lemma round_sim a A i v : lmem a = [A; KeccakRoundConstants] -> lpv a 0 = [(0, 0)] -> lpv a 1 = [(1, 0)] -> length A = 25 -> ieval (liv a) (IV 1) = i -> i < 24 -> KeccakP1600Round A i = Ok v ->
  lrun G (c_KeccakP1600Round (P0 0) 1 (IV 1)) a = Some (mkL (liv a) (ldv a) (lpv a) [v; KeccakRoundConstants] (4 + lct a)).
Proof.
  intros HM HP0 HP1 HL Hi Hlt HF. destruct (steps_len A HL) as (v1 & v2 & v3 & v4 & E1 & L1 & E2 & L2 & E3 & L3 & E4 & L4).
  unfold KeccakP1600Round in HF. rewrite E1 in HF. cbn [bind] in HF. rewrite E2 in HF. cbn [bind] in HF. rewrite E3 in HF. cbn [bind] in HF. rewrite E4 in HF. cbn [bind] in HF.
  unfold c_KeccakP1600Round. cbn [lrun map]. unfold P0 at 1. cbn [pargevals pargeval pevals peval ieval]. rewrite HP0, HP1, HM. cbn [nth_error].
  cbn [ieval] in Hi. rewrite Hi.
  assert (X : lrun G KeccakP1600Round_body (mkL (args 0 [i]) (args 0%N []) (args [] [[(0, 0)]; [(1, 0)]]) [A; KeccakRoundConstants] (lct a)) =
    Some (mkL (args 0 [i]) (args 0%N []) (args [] [[(0, 0)]; [(1, 0)]]) [v; KeccakRoundConstants] (4 + lct a))).
  { unfold KeccakP1600Round_body. cbn [lrun]. unfold c_theta.
    match goal with |- context[lrun G (Call theta_body [] [] [PL [P0 0]] [] []) ?x] => rewrite (call_sim theta_body theta 2 x A _ v1 theta_sim eq_refl eq_refl HL E1) end. cbn [liv ldv lpv lct].
    unfold c_rho. match goal with |- context[lrun G (Call rho_body [] [] [PL [P0 0]] [] []) ?x] => rewrite (call_sim rho_body rho 0 x v1 _ v2 rho_sim eq_refl eq_refl L1 E2) end. cbn [liv ldv lpv lct].
    unfold c_pi. match goal with |- context[lrun G (Call pi_body [] [] [PL [P0 0]] [] []) ?x] => rewrite (call_sim pi_body pi 1 x v2 _ v3 pi_sim eq_refl eq_refl L2 E3) end. cbn [liv ldv lpv lct].
    unfold c_chi. match goal with |- context[lrun G (Call chi_body [] [] [PL [P0 0]] [] []) ?x] => rewrite (call_sim chi_body chi 1 x v3 _ v4 chi_sim eq_refl eq_refl L3 E4) end. cbn [liv ldv lpv lct].
    match goal with |- context[lrun G (c_iota (P0 0) 1 (IV 0)) ?x] => rewrite (iota_sim x v4 i v eq_refl eq_refl eq_refl L4 eq_refl Hlt HF) end. reflexivity. }
  match type of X with _ = Some ?r => match goal with |- context[lrun G KeccakP1600Round_body ?z] => replace (lrun G KeccakP1600Round_body z) with (Some r) by (symmetry; exact X) end end. reflexivity.
Qed.

Lemma round_len A i v : length A = 25 -> i < 24 -> KeccakP1600Round A i = Ok v -> length v = 25.
Proof.
  intros HL Hi HF. destruct (steps_len A HL) as (v1 & v2 & v3 & v4 & E1 & L1 & E2 & L2 & E3 & L3 & E4 & L4).
  unfold KeccakP1600Round in HF. rewrite E1 in HF. cbn [bind] in HF. rewrite E2 in HF. cbn [bind] in HF. rewrite E3 in HF. cbn [bind] in HF. rewrite E4 in HF. cbn [bind] in HF.
  rewrite iota_eq in HF by assumption. injection HF as <-. reflexivity.
Qed.

Lemma rounds_sim n : forall i A v a, i + n <= 24 -> lmem a = [A; KeccakRoundConstants] -> lpv a 0 = [(0, 0)] -> lpv a 1 = [(1, 0)] -> length A = 25 ->
  for_loop n i (fun i s => KeccakP1600Round s i) A = Ok v ->
  exists b, lloop (fun i a => lrun G (c_KeccakP1600Round (P0 0) 1 (IV 1)) (lset_iv a (upd (liv a) 1 i))) n i a = Some b /\ lmem b = [v; KeccakRoundConstants] /\ length v = 25.
Proof.
  induction n as [|n IH]; intros i A v a Hi HM HP0 HP1 HL HF; cbn [for_loop lloop] in *; [injection HF as <-; exists a; auto|].
  destruct (KeccakP1600Round A i) as [w| | |] eqn:E; cbn [bind] in HF; try discriminate.
  rewrite (round_sim (lset_iv a (upd (liv a) 1 i)) A i w HM HP0 HP1 HL eq_refl ltac:(lia) E). cbn [lset_iv liv ldv lpv lct].
  replace (i + 1) with (S i) by lia. apply (IH (S i) w v); try assumption; [lia|reflexivity|]. apply (round_len A i w HL ltac:(lia) E).
Qed.

Lemma permute_sim A v u : length A = 25 -> KeccakP1600OnWords A 24 = Ok v ->
  exists b, lrun G Permute_body (mkL (args 0 []) (args 0%N []) (args [] [[(0, 0)]; [(1, 0)]]) [A; KeccakRoundConstants] u) = Some b /\ lmem b = [v; KeccakRoundConstants] /\ length v = 25.
Proof.
  intros HL HF. unfold KeccakP1600OnWords in HF. unfold Permute_body, c_KeccakP1600OnWords. cbn [lrun map]. unfold P0 at 1. cbn [pargevals pargeval pevals peval ieval args nth nth_error lpv liv lmem lct].
  unfold KeccakP1600OnWords_body. cbn [lrun]. cbn [ieval liv args nth].
  destruct (rounds_sim 24 0 A v (mkL (args 0 [24]) (args 0%N []) (args [] [[(0, 0)]; [(1, 0)]]) [A; KeccakRoundConstants] u) ltac:(lia) eq_refl eq_refl eq_refl HL HF) as (b & E & Mb & Lb).
  match goal with |- context[lloop ?f ?n ?i ?x] => change (lloop f n i x) with (lloop f 24 0 (mkL (args 0 [24]) (args 0%N []) (args [] [[(0, 0)]; [(1, 0)]]) [A; KeccakRoundConstants] u)) end.
  rewrite E. eexists. split; [reflexivity|]. auto.
Qed.
End T.

(** ** Bytes *)
Lemma byte_of_word w : forall d j, j < w -> nth j (bytes_of_word w d) 0%N = N.land (N.shiftr d (N.of_nat (8 * j))) 255.
Proof.
  induction w as [|w IH]; intros d j Hj; [lia|]. cbn [bytes_of_word]. destruct j as [|j]; cbn [nth].
  - rewrite Nat.mul_0_r, N.shiftr_0_r. change 255%N with (N.ones 8). rewrite N.land_ones. reflexivity.
  - rewrite IH by lia. f_equal. replace (8 * S j) with (8 + 8 * j) by lia. rewrite Nat2N.inj_add, <- N.shiftr_shiftr. f_equal. change 256%N with (2 ^ 8)%N. symmetry. apply N.shiftr_div_pow2.
Qed.
Lemma unwords_lb W : length W = 25 -> fromWordsToBytes W = Ok (lb W).
Proof.
  intros HL. unfold fromWordsToBytes. rewrite (mapM_seq_pure 200 0 _ (fun k => N.land (N.shiftr (nth (k / 8) W 0%N) (N.of_nat (8 * (k mod 8)))) 255)).
  2:{ intros k Hk. rewrite (rd_ok W _ 0%N) by (rewrite HL; apply Nat.div_lt_upper_bound; lia). reflexivity. }
  f_equal. apply (list_ext 0%N); [rewrite map_length, seq_length, length_lb; lia|]. intros k Hk. rewrite map_length, seq_length in Hk.
  rewrite nth_map_seq by exact Hk. cbn [Nat.add]. pose proof (Nat.div_mod k 8 ltac:(lia)) as E. pose proof (Nat.mod_upper_bound k 8 ltac:(lia)).
  rewrite E at 3. unfold lb. rewrite nth_flat_map with (e := 0%N) by (try (intros; apply length_bytes_of_word); try lia; rewrite HL; apply Nat.div_lt_upper_bound; lia). symmetry. apply byte_of_word. assumption.
Qed.
Lemma words_lb s : length s = 200 -> bytes_ok s -> exists W, fromBytesToWords s = Ok W /\ length W = 25 /\ lanes_ok W /\ lb W = s.
Proof.
  intros HL HB. destruct (proj1 (ok_ex _ _) (words_ok s HL HB)) as (W & E & R). exists W. pose proof R as (LW & _ & BW & _). split; [exact E|]. split; [exact LW|]. split; [exact BW|].
  pose proof (unwords_ok _ _ R) as X. rewrite (unwords_lb W LW) in X. cbn [ok] in X. destruct X as (_ & X2 & X3). rewrite <- (bits_bytes_bits (lb W) X2), X3. apply bits_bytes_bits, HB.
Qed.

Lemma chg_keep n m m' rs q l : chg n m m' ((q, length l) :: rs) -> pts n m q l -> pts n m' q l -> chg n m m' rs.
Proof.
  intros C [P1 P2] [P3 P4] b Hb. destruct (C b Hb) as [C1 C2]. split; [exact C1|]. intros i Hi.
  destruct (Nat.eq_dec b (fst q)) as [->|Hne].
  - destruct (Nat.lt_ge_cases i (snd q)) as [Hl|Hl]; [|destruct (Nat.lt_ge_cases i (snd q + length l)) as [Hh|Hh]].
    + apply C2. intros p k [E|Hp] F; [injection E as <- <-; left; exact Hl|apply (Hi p k Hp F)].
    + destruct (nth_error l (i - snd q)) as [x|] eqn:E; [|apply nth_error_None in E; lia]. apply P2 in E as E2. apply P4 in E as E4. replace (snd q + (i - snd q)) with i in * by lia. congruence.
    + apply C2. intros p k [E|Hp] F; [injection E as <- <-; right; exact Hh|apply (Hi p k Hp F)].
  - apply C2. intros p k [E|Hp] F; [injection E as <- <-; contradiction|apply (Hi p k Hp F)].
Qed.

(** The table of round constants, as stored. *)
Definition rc_bytes : bytes := lb KeccakRoundConstants.
Lemma length_rc : length rc_bytes = 192.
Proof. reflexivity. Qed.

Lemma runs_Permute U A RC y q qr s (Q : state -> Prop) : locals_ok U ->
  peval (iv y) (pv y) A = Some q -> pv y RC = [qr] -> pts (nx y) (mm y) q s -> wfs s -> snd q mod 8 = 0 ->
  pts (nx y) (mm y) qr rc_bytes -> snd qr mod 8 = 0 -> disj q 200 qr 192 ->
  (forall m' c', pts (nx y) m' q (Fp s) -> chg (nx y) (mm y) m' [(q, 200)] -> Q (set_mc y m' c')) ->
  runs U (c_Permute A RC) y Q.
Proof.
  intros HU Hq HRC Pq [Ls Bs] Aq Pr Ar D HQ. destruct (words_lb s Ls Bs) as (W & EW & LW & BW & ES).
  destruct (permute_eq s (conj Ls Bs)) as (EP & [LF BF] & _). Local Transparent SnP_Permute. unfold SnP_Permute in EP. Local Opaque SnP_Permute. rewrite EW in EP. cbn [bind] in EP.
  destruct (KeccakP1600OnWords W 24) as [V| | |] eqn:EV; cbn [bind] in EP; try discriminate.
  destruct (permute_sim (locG U) W V (ct y) LW EV) as (b & Eb & Mb & LV). rewrite (unwords_lb V LV) in EP. injection EP as EP.
  unfold c_Permute. eapply runs_call; [cbn [pargevals pargeval pevals]; rewrite Hq, HRC; reflexivity|]. cbn [map].
  set (L := mkLayout 2 (fun k => match k with 0 => q | _ => qr end) (fun k => match k with 0 => 200 | _ => 192 end)).
  eapply runs_mono; [apply (lrun_ok U (nx y) (mm y) HU Permute_body L _ _ b Eb)|].
  - split; cbn [iv dv pv mm nx ct liv ldv lpv lmem lct].
    + reflexivity.
    + reflexivity.
    + intros x. destruct x as [|[|x]]; unfold args, conc; cbn [nth map fst snd reg L]; try (rewrite Nat.add_0_r, <- surjective_pairing; reflexivity). destruct x; reflexivity.
    + intros x. destruct x as [|[|x]]; unfold args; cbn [nth cnt L]; try (constructor; [cbn; lia|constructor]). destruct x; constructor.
    + reflexivity.
    + intros k Hk. cbn [cnt L] in Hk. destruct k as [|[|k]]; [exact Aq|exact Ar|lia].
    + intros x. destruct x; reflexivity.
    + intros k. destruct k as [|[|k]]; cbn [nth]; [exact BW| |destruct k; constructor]. unfold lanes_ok. repeat (constructor; [reflexivity|]). constructor.
    + reflexivity.
    + split; cbn [cnt L].
      * split; [lia| |]; cbn [cnt L].
        { intros k Hk. destruct k as [|[|k]]; [apply Pq|apply Pr|lia]. }
        { intros i j Hi Hj Hij. destruct i as [|[|i]], j as [|[|j]]; try lia; cbn [reg sz L]; [exact D|apply disj_sym, D]. }
      * intros k Hk. destruct k as [|[|k]]; [cbn [nth reg L]; rewrite ES; exact Pq|exact Pr|lia].
      * intros k Hk. destruct k as [|[|k]]; [cbn [nth]; rewrite ES; exact Ls|reflexivity|lia].
      * intros k Hk. apply lb_ok.
      * apply chg_refl.
  - intros z [Hz Nz]. cbn [nx] in Nz. cbn [copy_back]. pose proof (lr_heap _ _ _ _ _ Hz) as HH. rewrite Nz in HH.
    pose proof (heap_pts _ _ _ _ _ _ HH 0 ltac:(cbn; lia)) as P0'. pose proof (heap_pts _ _ _ _ _ _ HH 1 ltac:(cbn; lia)) as P1'. pose proof (heap_chg _ _ _ _ _ _ HH) as C.
    rewrite Mb in P0', P1'. cbn [nth reg L] in P0', P1'. rewrite EP in P0'. rewrite Nz. apply (HQ (mm z) (ct z) P0').
    apply (chg_keep _ _ _ _ qr rc_bytes); [|exact Pr|exact P1']. eapply chg_incl; [exact C|]. rewrite length_rc. intros x [<-|[<-|[]]]; cbn; auto.
Qed.

Lemma Permute_shows A RC : shows_nothing (c_Permute A RC) = true.
Proof. reflexivity. Qed.
