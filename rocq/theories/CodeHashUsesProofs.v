(** The functions that hash, on memory. *)

From Coq Require Import List NArith Arith Bool Lia ZifyBool ZifyNat ZifyN.
From Verif Require Import Base Params Env Spec MiniC CodeLowMC CodeKeccak CodeSpec Keccak KeccakSpec HashSpec CodeKeccakSpec CodeHashUses CodeHashUsesSpec Tree Picnic1 Picnic3.
From Verif Require Import BaseFacts KeccakPerm KeccakSponge KeccakProofs HashProofs MiniCFacts CodeRules CodeLowMCProofs CodeHeap CodeLanes CodeKeccakProofs CodeSpongeProofs CodeSqueezeProofs CodeHashProofs.
Import ListNotations.

Lemma intLE_word x : bytes_of_word 2 (N.of_nat x) = intLE x.
Proof. reflexivity. Qed.
Lemma intLE_ok x : bytes_ok (intLE x).
Proof. repeat constructor; apply N.mod_lt; discriminate. Qed.

Lemma nth_error_firstn {A} n : forall (l : list A) i, nth_error (firstn n l) i = if i <? n then nth_error l i else None.
Proof.
  induction n as [|n IH]; intros l i; [destruct i; reflexivity|]. destruct l as [|x l]; [destruct (i <? S n); destruct i; reflexivity|].
  destruct i as [|i]; [reflexivity|]. cbn [firstn nth_error]. rewrite IH. reflexivity.
Qed.
Lemma nth_error_skipn {A} n : forall (l : list A) i, nth_error (skipn n l) i = nth_error l (n + i).
Proof. induction n as [|n IH]; intros l i; [reflexivity|]. destruct l as [|x l]; [destruct i; reflexivity|apply IH]. Qed.

Section M.
Variable U : nat -> nat -> bytes.
Hypothesis HU : locals_ok U.

Section Session.
Variables (st : state) (q qr : ptr) (rate : nat).
Hypothesis Hr : 1 < rate / 8 <= 200.
Hypothesis V1 : pv st 1 = [q].
Hypothesis V0 : pv st 0 = [qr].
Hypothesis Aq : snd q mod 8 = 0.
Hypothesis Ar : snd qr mod 8 = 0.
Hypothesis Pr : pts (nx st) (mm st) qr rc_bytes.
Hypothesis Dr : disj q 200 qr 192.
Notation hA := (hA st q rate).
Notation absorbed_to := (absorbed_to rate).

(** A small constant goes through a local variable. *)
Lemma absorb_const w v D z : 0 < w -> 0 < rate / 8 -> hA D z -> bytes_ok D ->
  runs U (Loc 2 (IC w) (Seq (St w (P0 2) (DC v)) (c_HashUpdate (P0 1) (P0 2) 0 (IC w)))) z (hA (D ++ bytes_of_word w v)).
Proof.
  intros Hw Hr0 H BD. pose proof H as [H0 H1 H2 H11 Hp Hd Hn Hq Hc]. destruct (absorbing_wf (rate / 8) D ltac:(lia) BD) as [W K].
  apply runs_loc. csimpl. rewrite Hn. destruct (HU (ct z) w) as [LU BU]. set (V := U (ct z) w) in *.
  set (m1 := upd (mm z) (nx st) V). assert (Q1 : pts (S (nx st)) m1 (nx st, 0) V) by apply pts_local.
  assert (Lb : length (bytes_of_word w v) = w) by (clear; revert v; induction w as [|w IH]; intros v; [reflexivity|cbn; rewrite IH; reflexivity]).
  assert (Bb : bytes_ok (bytes_of_word w v)) by (clear; revert v; induction w as [|w IH]; intros v; constructor; [apply N.mod_lt; discriminate|apply IH]).
  apply runs_seq. eapply runs_st; [csimpl; reflexivity|csimpl; apply (pts_valid _ _ _ _ _ _ Q1); [lia|lia|apply Nat.mod_0_l; lia]|]. csimpl.
  destruct (wrmem_part (S (nx st)) m1 (nx st, 0) V 0 (bytes_of_word w v) Q1) as (Q2 & C2 & _); [lia|intros X; rewrite X in Lb; cbn in Lb; lia|].
  rewrite firstn_O, Nat.add_0_l, Lb, (skipn_all2 V), app_nil_r in Q2 by lia. cbn [app fst snd] in Q2, C2. rewrite Nat.add_0_r in C2. rewrite LU in C2.
  set (m2 := wrmem m1 (nx st, 0) (bytes_of_word w v)) in *.
  assert (Nq : fst q < nx st) by apply Hq. assert (Nr : fst qr < nx st) by apply Pr.
  assert (Dl : forall p k l, fst p < nx st -> disj (nx st, 0) k p l) by (intros p k l Hp'; left; cbn [fst]; lia).
  assert (Pr1 : pts (nx st) (mm z) qr rc_bytes) by (apply (pts_chg1 _ _ _ _ _ _ _ Hc Pr Dr)).
  eapply (runs_HashUpdate U HU _ _ _ _ _ q (nx st, 0) qr (absorbed_to D) rate (bytes_of_word w v)); csimpl; try eassumption.
  - symmetry. exact Lb.
  - rewrite Hp, V1. reflexivity.
  - reflexivity.
  - rewrite Hp. exact V0.
  - lia.
  - apply (pts_chg1 _ _ _ _ _ _ _ C2); [apply pts_new; exact Hq|apply Dl; exact Nq].
  - apply (pts_chg1 _ _ _ _ _ _ _ C2); [apply pts_new; exact Pr1|apply Dl; exact Nr].
  - apply disj_sym, Dl, Nq.
  - cbv zeta. intros m' c' i' I0 I1 I2 I11 P1 C1.
    assert (C3 : chg (S (nx st)) m1 m' [(q, 200); ((nx st, 0), w)]).
    { eapply chg_trans; [exact C2|exact C1|intros y [<-|[]]; right; left; reflexivity|intros y [<-|[]]; left; reflexivity]. }
    assert (X : absorbed_to (D ++ bytes_of_word w v) = fold_left (absorb1 (rate / 8)) (bytes_of_word w v) (absorbed_to D)) by (unfold CodeHashProofs.absorbed_to; rewrite fold_left_app; reflexivity).
    split; rewrite ?X; csimpl; auto.
    + congruence.
    + intros a. unfold upd. destruct (Nat.eqb_spec a 2) as [->|_]; apply Hp.
    + apply pts_drop; [exact P1|exact Nq].
    + apply (chg1_trans _ _ _ _ _ Hc). apply (chg_local _ _ _ _ _ _ C3). intros y [<-|[<-|[]]] Hy; [left; reflexivity|cbn in Hy; lia].
Qed.

(** The data of an item. *)
Definition item_at (x : item) (c : bytes) : Prop :=
  match x with
  | Buf a i n => exists p, nth_error (pv st a) i = Some p /\ pts (nx st) (mm st) p c /\ bytes_ok c /\ length c = n /\ disj q 200 p n
  | Num k => c = intLE k
  end.
Lemma item_bytes x c : item_at x c -> bytes_ok c.
Proof. destruct x; [intros (p & _ & _ & B & _); exact B|intros ->; apply intLE_ok]. Qed.

Lemma items_run l : forall cs D z, Forall2 item_at l cs -> hA D z -> bytes_ok D -> runs U (c_items l) z (hA (D ++ concat cs)).
Proof.
  induction l as [|x l IH]; intros cs D z HF H BD; inversion HF as [|? c ? cs' Hx HF']; subst; cbn [c_items concat].
  - apply runs_skip. rewrite app_nil_r. exact H.
  - apply runs_seq. apply runs_mono with (Q := hA (D ++ c)).
    + destruct x as [a i k|k]; cbn [c_item item_at] in *.
      * destruct Hx as (p & Ha & P1 & B1 & L1 & D1). subst k. pose proof H as [H0 H1 H2 H11 Hp Hd Hn Hq Hc].
        destruct (absorbing_wf (rate / 8) D ltac:(lia) BD) as [W K].
        eapply (runs_HashUpdate U HU z _ _ _ _ q p qr (absorbed_to D) rate c); rewrite ?Hn; try eassumption.
        -- reflexivity.
        -- csimpl. rewrite Hp, V1. reflexivity.
        -- csimpl. rewrite Hp. exact Ha.
        -- rewrite Hp. exact V0.
        -- lia.
        -- apply (pts_chg1 _ _ _ _ _ _ _ Hc P1 D1).
        -- apply (pts_chg1 _ _ _ _ _ _ _ Hc Pr Dr).
        -- cbv zeta. intros m' c' i' E0 E1 E2 E11 Q1 C1.
           assert (X : absorbed_to (D ++ c) = fold_left (absorb1 (rate / 8)) c (absorbed_to D)) by (unfold CodeHashProofs.absorbed_to; rewrite fold_left_app; reflexivity).
           split; rewrite ?X; csimpl; auto; [congruence|exact (chg1_trans _ _ _ _ _ Hc C1)].
      * subst c. rewrite <- intLE_word. apply absorb_const; [lia|lia|exact H|exact BD].
    + intros w Hw. rewrite app_assoc. apply IH; [exact HF'|exact Hw|]. apply bytes_ok_app. split; [exact BD|exact (item_bytes x c Hx)].
Qed.
End Session.

Lemma init_run2 b prefix st q qr s : pv st 1 = [q] -> pv st 0 = [qr] -> snd q mod 8 = 0 -> snd qr mod 8 = 0 -> pts (nx st) (mm st) qr rc_bytes -> disj q 200 qr 192 ->
  pts (nx st) (mm st) q s -> length s = 200 -> match prefix with Some b => byte b | None => True end ->
  runs U (c_HashInit b prefix (P0 1) 0 2) st (hA st q (if b then 1344 else 1088) (prefix_bytes prefix)).
Proof.
  intros V1 V0 Aq Ar Pr Dr Pq Ls Hb. set (rate := if b then 1344 else 1088). assert (Hr : 1 < rate / 8 <= 200) by (unfold rate; destruct b; cbn; lia).
  unfold c_HashInit. apply runs_seq.
  assert (X : runs U (if b then c_HashInitialize (P0 1) 1344 256 else c_HashInitialize (P0 1) 1088 512) st (hA st q rate [])).
  { assert (Y : forall rate' cap, rate' = rate -> rate' + cap = 1600 -> rate' mod 8 = 0 -> runs U (c_HashInitialize (P0 1) rate' cap) st (hA st q rate [])).
    { intros rate' cap -> E1 E2. eapply (runs_HashInitialize U st _ q s rate cap); [csimpl; rewrite V1; reflexivity|exact Pq|exact Ls|exact E1|unfold rate; destruct b; lia|exact E2|].
      intros m' c' i' I0 I1 I2 I11 P1 C1. split; auto. }
    unfold rate. destruct b; apply Y; reflexivity. }
  eapply runs_mono; [exact X|]. intros z Hz. destruct prefix as [x|]; cbn [prefix_bytes]; [|apply runs_skip; exact Hz].
  assert (E : [x] = [] ++ bytes_of_word 1 x) by (cbn; rewrite N.mod_small by exact Hb; reflexivity). rewrite E.
  apply (absorb_const st q qr rate Hr V1 V0 Aq Ar Pr Dr 1 x [] z); [lia|lia|exact Hz|constructor].
Qed.

(** One digest. *)
Lemma digest_run P prefix st q qr s l cs a i p d0 : match prefix with Some b => byte b | None => True end ->
  pv st 1 = [q] -> pv st 0 = [qr] -> snd q mod 8 = 0 -> snd qr mod 8 = 0 -> pts (nx st) (mm st) qr rc_bytes -> disj q 200 qr 192 ->
  pts (nx st) (mm st) q s -> length s = 200 -> Forall2 (item_at st q) l cs ->
  nth_error (pv st a) i = Some p -> pts (nx st) (mm st) p d0 -> disj q 200 p (length d0) -> disj p (length d0) qr 192 ->
  runs U (c_digest P prefix l a i (length d0)) st (fun w => iv w 11 = iv st 11 /\ dv w = dv st /\ (forall a, pv w a = pv st a) /\ nx w = nx st /\
    pts (nx st) (mm w) p (shake (use_shake128 P) (prefix_bytes prefix ++ concat cs) (length d0)) /\
    chg (nx st) (mm st) (mm w) [(q, 200); (p, length d0)] /\ exists s', length s' = 200 /\ pts (nx st) (mm w) q s').
Proof.
  intros Hb V1 V0 Aq Ar Pr Dr Pq Ls HF Ha Pd Dd Ddr. pose proof (rate_bytes_ok P) as Hr.
  set (rate := if use_shake128 P then 1344 else 1088). assert (Er : rate / 8 = rate_bytes P) by (unfold rate, rate_bytes; destruct (use_shake128 P); reflexivity).
  assert (Hr1 : 1 < rate / 8 <= 200) by (unfold rate; destruct (use_shake128 P); cbn; lia). assert (Hr' : 0 < rate / 8 <= 200) by lia.
  assert (HB : bytes_ok (prefix_bytes prefix)) by (destruct prefix as [b|]; [repeat constructor; exact Hb|constructor]).
  assert (HC : bytes_ok (concat cs)) by (apply bytes_ok_concat; clear - HF; induction HF; constructor; [eapply item_bytes; eassumption|assumption]).
  set (D := prefix_bytes prefix ++ concat cs). assert (BD : bytes_ok D) by (apply bytes_ok_app; auto).
  unfold c_digest. apply runs_seq. eapply runs_mono; [apply (init_run2 (use_shake128 P) prefix st q qr s); assumption|]. fold rate. intros z1 H1.
  apply runs_seq. eapply runs_mono; [apply (items_run st q qr rate Hr1 V1 V0 Aq Ar Pr Dr l cs (prefix_bytes prefix) z1 HF H1 HB)|]. fold D. intros z2 [I0 I1 I2 I11 Ip Id In_ Iq Ic].
  destruct (absorbing_wf (rate / 8) D Hr' BD) as [W K]. apply runs_seq.
  eapply (runs_HashFinal U HU z2 _ _ q qr (absorbed_to rate D) rate); rewrite ?In_; try eassumption.
  - csimpl. rewrite Ip, V1. reflexivity.
  - rewrite Ip. exact V0.
  - apply (pts_chg1 _ _ _ _ _ _ _ Ic Pr Dr).
  - intros m' c' i' J0 J1 J2 J11 P1 C1.
    assert (EF : fst (fold_left (absorb1 (rate / 8)) (pad_tail (rate / 8) (snd (absorbed_to rate D))) (absorbed_to rate D)) = final_state (rate / 8) D).
    { unfold final_state, absorbed_to. rewrite fold_left_app. rewrite absorb_pos by (cbn; lia). reflexivity. }
    rewrite EF in P1. destruct (final_state_ok (rate / 8) D Hr' BD) as [WF _]. pose proof (chg1_trans _ _ _ _ _ Ic C1) as C2.
    eapply (runs_HashSqueeze U HU _ _ _ _ _ q p qr (final_state (rate / 8) D, 0) rate d0); csimpl; try eassumption.
    + reflexivity.
    + rewrite Ip, V1. reflexivity.
    + rewrite Ip. exact Ha.
    + rewrite Ip. exact V0.
    + lia.
    + apply (pts_chg1 _ _ _ _ _ _ _ C2 Pd Dd).
    + apply (pts_chg1 _ _ _ _ _ _ _ C2 Pr Dr).
    + cbv zeta. intros m2 c2 i2 L0 L1 L2 L11 P2 P3 C3. csimpl. destruct (sqn_wf (rate / 8) (length d0) Hr' (final_state (rate / 8) D, 0) WF ltac:(cbn; lia)) as [W' _].
      split; [congruence|]. split; [exact Id|]. split; [exact Ip|]. split; [reflexivity|]. split; [|split].
      * fold D. rewrite shake_sqn by exact BD. rewrite <- Er. exact P3.
      * eapply chg_trans; [exact C2|exact C3|intros y [<-|[]]; left; reflexivity|intros y Hy; exact Hy].
      * eexists. split; [apply W'|exact P2].
Qed.

(** ** Inside a function with a local context *)
Record inC (st : state) (rs : list (ptr * nat)) (z : state) : Prop := {
  i_ctx : pv z 1 = [(nx st, 0)];
  i_pv : forall a, a <> 1 -> pv z a = pv st a;
  i_nx : nx z = S (nx st);
  i_dv : dv z = dv st;
  i_11 : iv z 11 = iv st 11;
  i_chg : exists V, chg (S (nx st)) (upd (mm st) (nx st) V) (mm z) (((nx st, 0), 200) :: rs);
  i_room : exists s, length s = 200 /\ pts (S (nx st)) (mm z) (nx st, 0) s
}.

Definition item_in (st z : state) (x : item) (c : bytes) : Prop :=
  match x with
  | Buf a i n => a <> 1 /\ exists p, nth_error (pv st a) i = Some p /\ fst p < nx st /\ pts (S (nx st)) (mm z) p c /\ bytes_ok c /\ length c = n
  | Num k => c = intLE k
  end.

Lemma inC_pts st rs z p l : inC st rs z -> pts (nx st) (mm st) p l -> (forall r k, In (r, k) rs -> disj r k p (length l)) -> pts (S (nx st)) (mm z) p l.
Proof.
  intros [_ _ _ _ _ (V & C) _] H Hd. apply (pts_chg _ _ _ _ _ _ C); [apply pts_new; exact H|]. intros r k [E|E]; [|apply Hd; exact E].
  injection E as <- <-. left. cbn [fst]. destruct H as [X _]. lia.
Qed.

(** An old region keeps its size. *)
Lemma inC_same st rs z p d : inC st rs z -> pts (nx st) (mm st) p d -> exists d', length d' = length d /\ pts (S (nx st)) (mm z) p d'.
Proof.
  intros [_ _ _ _ _ (V & C) _] H. pose proof H as [Hp _]. destruct (C (fst p) ltac:(lia)) as [L _]. unfold upd in L. rewrite (proj2 (Nat.eqb_neq (fst p) (nx st))) in L by lia.
  destruct d as [|x d]. { exists []. split; [reflexivity|]. split; [lia|]. intros i y Hy. destruct i; discriminate Hy. }
  pose proof (pts_bound _ _ _ _ H ltac:(discriminate)) as B. set (k := length (x :: d)) in *.
  exists (firstn k (skipn (snd p) (mm z (fst p)))). split; [rewrite firstn_length, skipn_length; lia|]. split; [lia|].
  intros i y Hy. assert (Hi : i < k). { assert (i < length (firstn k (skipn (snd p) (mm z (fst p))))) by (apply nth_error_Some; congruence). rewrite firstn_length in *. lia. }
  rewrite nth_error_firstn, nth_error_skipn in Hy. destruct (Nat.ltb_spec i k); [exact Hy|lia].
Qed.

Lemma digest_in P prefix st qr rs z l cs a i p n d0 : match prefix with Some b => byte b | None => True end ->
  constants st qr -> (forall r k, In (r, k) rs -> disj r k qr 192) -> inC st rs z -> Forall2 (item_in st z) l cs ->
  a <> 1 -> nth_error (pv st a) i = Some p -> pts (nx st) (mm st) p d0 -> n = length d0 -> (exists k, In (p, k) rs /\ n <= k) -> disj p n qr 192 ->
  runs U (c_digest P prefix l a i n) z (fun w => inC st rs w /\ pts (S (nx st)) (mm w) p (shake (use_shake128 P) (prefix_bytes prefix ++ concat cs) n) /\
    chg (S (nx st)) (mm z) (mm w) [((nx st, 0), 200); (p, n)]).
Proof.
  intros Hb (V0 & Ar & Pr) Hrs Hz HF Ha Hi P0 Ln (k & Hk & Lk) Dp. change round_constant_bytes with rc_bytes in Pr. pose proof Hz as [Z1 Zp Zn Zd Z11 (V & Zc) (s & Ls & Zs)].
  destruct (inC_same _ _ _ _ _ Hz P0) as (d & Ld & Pd). assert (Nr : fst qr < nx st) by apply Pr. assert (Np : fst p < nx st) by apply P0. subst n. rewrite <- Ld in *.
  eapply runs_mono; [apply (digest_run P prefix z (nx st, 0) qr s l cs a i p d)|]; rewrite ?Zn; try assumption.
  - rewrite Zp by discriminate. exact V0.
  - reflexivity.
  - apply (inC_pts st rs z _ _ Hz Pr). exact Hrs.
  - left. cbn [fst]. lia.
  - clear - HF Zp Zn. induction HF as [|x c l cs Hx HF IH]; constructor; auto. destruct x as [a i k|k]; [|exact Hx].
    destruct Hx as (Ha & p & Hp & Hl & P1 & B1 & L1). exists p. rewrite Zn, Zp by exact Ha. repeat (split; [assumption|]). left. cbn [fst]. lia.
  - rewrite Zp by exact Ha. exact Hi.
  - left. cbn [fst]. lia.
  - intros w (W11 & Wd & Wp & Wn & Wo & Wc & Ws). rewrite Ld in *. split; [|split; [exact Wo|exact Wc]]. split.
    + rewrite Wp. exact Z1.
    + intros b Hb'. rewrite Wp. apply Zp. exact Hb'.
    + congruence.
    + congruence.
    + congruence.
    + exists V. intros b Hb'. destruct (Zc b Hb') as [L1 E1]. destruct (Wc b Hb') as [L2 E2]. split; [congruence|].
      intros j Hj. rewrite E2, E1; [reflexivity|exact Hj|]. intros r kk [E|[E|[]]] Hbr; injection E as <- <-.
      * apply (Hj _ 200); [left; reflexivity|exact Hbr].
      * pose proof (Hj p k (or_intror Hk) Hbr). lia.
    + exact Ws.
Qed.

(** The body of a function. *)
Lemma ctx_run st rs s (Q : state -> Prop) : (forall z, inC st rs z -> (forall p l, pts (nx st) (mm st) p l -> pts (S (nx st)) (mm z) p l) ->
    runs U s z (fun w => inC st rs w /\ Q (mkState (iv w) (dv w) (upd (pv w) 1 (pv st 1)) (upd (mm w) (nx st) []) (nx st) (ct w)))) ->
  runs U (with_ctx s) st Q.
Proof.
  intros H. unfold with_ctx. apply runs_loc. csimpl. destruct (HU (ct st) 200) as [LU _]. eapply runs_mono; [apply H|].
  - split; csimpl; auto.
    + intros a Ha. unfold upd. rewrite (proj2 (Nat.eqb_neq a 1)) by exact Ha. reflexivity.
    + eexists. apply chg_refl.
    + eexists. split; [exact LU|apply pts_local].
  - intros p l Hp. csimpl. apply pts_new. exact Hp.
  - intros w [_ Hw]. exact Hw.
Qed.

Lemma inC_out st rs w : inC st rs w -> let w' := mkState (iv w) (dv w) (upd (pv w) 1 (pv st 1)) (upd (mm w) (nx st) []) (nx st) (ct w) in
  chg (nx st) (mm st) (mm w') rs /\ iv w' 11 = iv st 11 /\ dv w' = dv st /\ (forall a, pv w' a = pv st a) /\ nx w' = nx st.
Proof.
  intros [W1 Wp Wn Wd W11 (V & Wc) _] w'. unfold w'. csimpl. split; [|split; [exact W11|split; [exact Wd|split; [|reflexivity]]]].
  - apply (chg_local _ _ _ _ _ _ Wc). intros y [<-|Hy] Hl; [cbn in Hl; lia|exact Hy].
  - intros a. unfold upd. destruct (Nat.eqb_spec a 1) as [->|Ha]; [reflexivity|apply Wp; exact Ha].
Qed.

(** From the caller's buffers to items. *)
Lemma item_holds st z a i n l : a <> 1 -> (forall p l, pts (nx st) (mm st) p l -> pts (S (nx st)) (mm z) p l) -> holds st a i n l -> item_in st z (Buf a i n) (firstn n l).
Proof.
  intros Ha Hz (p & Hp & P1 & B1 & L1 & _). split; [exact Ha|]. exists p. split; [exact Hp|]. split; [apply P1|]. split; [|split; [exact (bytes_ok_slice l 0 n B1)|rewrite firstn_length; lia]].
  pose proof (Hz _ _ P1) as [X Y]. split; [exact X|]. intros j x Hj. apply Y. rewrite nth_error_firstn in Hj. destruct (j <? n); [exact Hj|discriminate].
Qed.
Lemma item_off st rs z q k a i n l : a <> 1 -> inC st rs z -> (forall r j, In (r, j) rs -> r = q /\ j = k) -> holds_off q k st a i n l -> item_in st z (Buf a i n) (firstn n l).
Proof.
  intros Ha Hz Hrs (p & Hp & P1 & B1 & L1 & _ & D1). assert (Ln : length (firstn n l) = n) by (rewrite firstn_length; lia).
  assert (P2 : pts (nx st) (mm st) p (firstn n l)).
  { destruct P1 as [X Y]. split; [exact X|]. intros j x Hj. apply Y. rewrite nth_error_firstn in Hj. destruct (j <? n); [exact Hj|discriminate]. }
  split; [exact Ha|]. exists p. split; [exact Hp|]. split; [apply P1|]. split; [|split; [exact (bytes_ok_slice l 0 n B1)|exact Ln]].
  apply (inC_pts st rs z _ _ Hz P2). intros r j E. destruct (Hrs r j E) as [-> ->]. rewrite Ln. exact D1.
Qed.
Lemma holds_off_holds q k st a i n l : holds_off q k st a i n l -> holds st a i n l.
Proof. intros (p & A & B & C & D & E & _). exists p. auto. Qed.

(** A function with one digest. *)
Lemma single P prefix st qr l cs a i p n : match prefix with Some b => byte b | None => True end ->
  constants st qr -> a <> 1 -> room_at st qr a i p n ->
  (forall z, (forall p l, pts (nx st) (mm st) p l -> pts (S (nx st)) (mm z) p l) -> Forall2 (item_in st z) l cs) ->
  writes U (with_ctx (c_digest P prefix l a i n)) st p (shake (use_shake128 P) (prefix_bytes prefix ++ concat cs) n).
Proof.
  intros Hb Hc Ha (Hi & (d0 & Ld & Pd) & Dp) Hl. set (d := shake _ _ n). assert (Lx : length d = n) by apply shake_ok.
  assert (R : runs U (with_ctx (c_digest P prefix l a i n)) st (fun y => pts (nx st) (mm y) p d /\ chg (nx st) (mm st) (mm y) [(p, length d)] /\
    iv y 11 = iv st 11 /\ dv y = dv st /\ (forall a, pv y a = pv st a) /\ nx y = nx st)).
  { apply (ctx_run st [(p, n)]). intros z Hz Hold. eapply runs_mono; [apply (digest_in P prefix st qr [(p, n)] z l cs a i p n d0)|]; auto.
    - intros r k [E|[]]. injection E as <- <-. exact Dp.
    - exists n. split; [left; reflexivity|lia].
    - intros w (Hw & Wo & _). split; [exact Hw|]. rewrite Lx. split; [apply pts_drop; [exact Wo|apply Pd]|]. apply (inC_out st [(p, n)] w Hw). }
  unfold runs in R. destruct (run U _ st) as [[y t]|] eqn:E; [|contradiction]. exists y, t. split; [exact E|]. exact R.
Qed.
End M.
