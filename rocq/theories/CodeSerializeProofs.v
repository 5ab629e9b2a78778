(** Writing a ZKB++ signature as bytes on memory, and signing followed by it. *)

From Coq Require Import List NArith Arith Bool Lia ZifyBool ZifyNat ZifyN.
From Verif Require Import Base Params Env Spec LowMC Picnic1 MiniC CodeLowMC CodeSpec HashSpec CodeZkbSpec CodeSign CodeSignSpec CodeVerAll CodeSignAll CodeSignAllSpec CodeSerialize CodeSerializeSpec
  Api ApiSpec BaseFacts ParamFacts MiniCFacts CodeRules CodeLowMCProofs CodeHeap CodeZkbMpc CodeP3Proofs CodeP3Lin ZkbMpc Zkb ZkbCodec ZkbRound ZkbChal CodeH3Proofs ApiFacts CodeSignAllProofs.
From Verif Require CodeHashUsesSpec CodeVerRoundThm.
Import ListNotations.
Local Open Scope c_scope.

Lemma blit_app {A} (b o x : list A) : length o + length x <= length b -> blit_list (blit_list b 0 o) (length o) x = blit_list b 0 (o ++ x).
Proof.
  intros H. unfold blit_list. cbn [firstn app Nat.add]. rewrite firstn_app, Nat.sub_diag, firstn_all. cbn [firstn]. rewrite app_nil_r, <- app_assoc. do 2 f_equal.
  rewrite skipn_app, skipn_all2 by lia. cbn [app]. rewrite skipn_skipn, app_length. f_equal. lia.
Qed.

Section S.
Variables (U : nat -> nat -> bytes) (P : paramset) (HP1 : wfP1 P) (HD : 0 < digestSizeBytes P) (HN : pos_b P = true).
Variables (st : state) (q : nat -> ptr) (qb : ptr) (buf : bytes) (len : nat) (s : signature).
Hypothesis HM : serialize_call P st q qb buf len s.
Let T := numMPCRounds P.
Let n0 := nx st.
Let m0 := mm st.
Let ol : layout := mkLayout 1 (fun _ => qb) (fun _ => length buf).
Notation hp := (heap n0 m0 ol n0).
Notation cb := (s_challengeBits s).

(** With [out] written so far. *)
Definition wrote (out : bytes) : nat -> bytes := fun _ => blit_list buf 0 out.
Record at_out (y : state) (out : bytes) : Prop := {
  ao_pv : pv y = pv st; ao_nx : nx y = n0; ao_off : iv y 4 = length out; ao_ok : iv y 5 = 1; ao_hp : hp (mm y) (wrote out)
}.

Lemma ro_buf i l : inner P < i -> i < signer_count P -> CodeZkbSpec.holds st (q i) l -> length l <= signer_size P i -> ro n0 m0 ol (q i) l.
Proof.
  intros H1 H2 [H3 _] H4. split; [exact H3|]. intros k _. cbn [ol reg sz]. destruct (se_room _ _ _ _ _ _ _ HM) as (_ & _ & D). apply (disj_sub _ _ _ _ _ _ (D i H1 H2)); lia.
Qed.

Lemma h_put src n y out p x (Q : state -> Prop) : at_out y out -> peval (iv y) (pv y) src = Some p -> ro n0 m0 ol p x -> bytes_ok x -> length x = n -> 0 < n ->
  length out + n <= length buf ->
  (forall z, at_out z (out ++ x) -> iv z 1 = iv y 1 -> iv z 2 = iv y 2 -> Q z) -> runs U (c_put src n) y Q.
Proof.
  intros [A1 A2 A3 A4 A5] Ep R Bx Lx Hn Hl HQ. unfold c_put. apply runs_seq.
  pose proof (heap_ro _ _ _ _ _ _ _ _ A5 R) as P2. pose proof (heap_pts _ _ _ _ _ _ A5 0 ltac:(cbn; lia)) as P1. cbn [ol reg] in P1.
  assert (Lw : length (wrote out 0) = length buf) by (unfold wrote; apply length_blit_list; lia).
  set (d := (fst qb, snd qb + length out)).
  assert (Ed : peval (iv y) (pv y) (PAdd (P0 0) (IV 4)) = Some d).
  { cbn [P0 peval ieval]. rewrite A1, (se_out _ _ _ _ _ _ _ HM), A3. cbn [nth_error]. rewrite (surjective_pairing qb) at 1. reflexivity. }
  eapply (runs_memcpy U _ _ _ d p); [exact Ed|exact Ep| | | |]; cbn [ieval].
  - unfold d. pose proof (pts_bound _ _ _ _ P1 ltac:(intros Hc; rewrite Hc in Lw; cbn in Lw; lia)). unfold valid. cbn [fst snd]. rewrite Nat.mod_1_r. apply andb_true_iff. split; [apply Nat.leb_le; lia|reflexivity].
  - apply (pts_valid n0 _ _ x); auto; lia.
  - destruct R as [_ D]. specialize (D 0 ltac:(cbn; lia)). cbn [ol reg sz] in D. unfold d, separate, disj in *. cbn [fst snd]. lia.
  - rewrite (rdmem_pts n0 _ _ x) by (auto; lia). rewrite firstn_all2 by lia.
    destruct (wrmem_pts n0 (mm y) d x) as [D1 D2].
    + apply P1.
    + unfold d. cbn [fst snd]. rewrite Lx. pose proof (pts_bound _ _ _ _ P1 ltac:(intros Hc; rewrite Hc in Lw; cbn in Lw; lia)). lia.
    + apply runs_iset. apply HQ; unfold set_mm, set_iv; cbn [iv pv mm nx upd Nat.eqb ieval]; auto. split; cbn [iv pv mm nx upd Nat.eqb]; auto.
      * rewrite app_length. lia.
      * apply (heap_ext _ _ _ _ _ (cset (wrote out) 0 (blit_list (wrote out 0) (length out) x))).
        -- apply (heap_patch n0 m0 ol n0 (mm y)); auto; cbn [ol cnt sz reg]; lia.
        -- intros k Hk. cbn [ol cnt] in Hk. replace k with 0 by lia. rewrite cset_eq. unfold wrote. symmetry. apply blit_app. lia.
Qed.

Lemma pos' : 0 < saltSizeBytes P /\ 0 < seedSizeBytes P /\ 0 < andSizeBytes P /\ 0 < stateSizeBytes P /\ (is_UR (transf P) = true -> 0 < UnruhGWithoutInputBytes P).
Proof. revert HN. unfold pos_b. rewrite !andb_true_iff, !Nat.leb_le. intros [[[[A B] C] D] F]. repeat (split; [assumption|]). intros Hu. rewrite Hu in F. apply Nat.leb_le in F. lia. Qed.

(** The bytes of a round. *)
Definition round_bytes (ch : nat) (pr : proof) : bytes :=
  p_view3Commitment pr ++ (if is_UR (transf P) then firstn (G_bytes P ch) (p_view3UnruhG pr) else []) ++ p_communicatedBits pr ++
  p_seed1 pr ++ p_seed2 pr ++ (if (ch =? 1) || (ch =? 2) then p_inputShare pr else []).
Definition round_max : nat :=
  2 * seedSizeBytes P + stateSizeBytes P + andSizeBytes P + digestSizeBytes P + (if is_UR (transf P) then UnruhGWithoutInputBytes P else 0).

Lemma size_proof' k e : e < proof_bufs P -> signer_size P (proof_at P k e) = proof_size P e.
Proof.
  intros He. unfold signer_size, proof_at. rewrite (proj2 (Nat.ltb_ge _ (inner P))), (proj2 (Nat.eqb_neq _ (inner P))), (proj2 (Nat.eqb_neq _ (inner P + 1))), (proj2 (Nat.eqb_neq _ (inner P + 2))) by lia.
  replace (inner P + 3 + proof_bufs P * k + e - (inner P + 3)) with (e + k * proof_bufs P) by lia. rewrite Nat.mod_add, Nat.mod_small by lia. reflexivity.
Qed.

Ltac side := try assumption; try (split; assumption); try solve [cbn [proof_size]; rewrite ?app_length; lia].

Section Rnd.
Variables (k ch : nat) (pr : proof).
Hypotheses (Hk : k < T) (Hc : getChallenge cb k = Ok ch) (Hs : proof_stored P st q k ch pr).

Lemma piece e l n : e < proof_bufs P -> CodeZkbSpec.holds st (q (proof_at P k e)) l /\ length l = n -> n <= proof_size P e -> ro n0 m0 ol (q (proof_at P k e)) l.
Proof.
  intros He [H L] Hn. apply ro_buf; [unfold proof_at; lia| |exact H|rewrite size_proof' by exact He; lia]. unfold proof_at, signer_count. fold T. nia.
Qed.

Lemma h_part e n l y out (Q : state -> Prop) : e < proof_bufs P -> at_out y out -> iv y 2 = k -> CodeZkbSpec.holds st (q (proof_at P k e)) l /\ length l = n -> 0 < n -> n <= proof_size P e ->
  length out + n <= length buf ->
  (forall z, at_out z (out ++ l) -> iv z 1 = iv y 1 -> iv z 2 = k -> Q z) -> runs U (c_put (of_proof P e) n) y Q.
Proof.
  intros He A I2 Hl Pn Ln Hb HQ. apply (h_put _ n y out (q (proof_at P k e)) l); auto.
  - unfold of_proof. cbn [peval ieval]. rewrite I2, (ao_pv _ _ A). apply (se_proofs _ _ _ _ _ _ _ HM k e Hk He).
  - apply (piece e l n); auto.
  - apply Hl.
  - apply Hl.
  - intros z Z1 Z2 Z3. apply HQ; auto. congruence.
Qed.

Lemma G_max : is_UR (transf P) = true -> 0 < G_bytes P ch /\ G_bytes P ch <= UnruhGWithInputBytes P /\
  G_bytes P ch + (if (ch =? 1) || (ch =? 2) then stateSizeBytes P else 0) <= UnruhGWithoutInputBytes P + stateSizeBytes P.
Proof.
  intros Hu. pose proof (w1_Gw P HP1 Hu) as W1. pose proof (w1_Gwo P HP1 Hu) as W2. destruct pos' as (_ & P1 & P2 & _ & P3). specialize (P3 Hu).
  unfold G_bytes. destruct (Nat.eqb_spec ch 0) as [->|]; [cbn [Nat.eqb orb]; lia|]. destruct (_ || _); lia.
Qed.

Lemma model_round : serialize_round P cb pr k = Ok (round_bytes ch pr) /\ length (round_bytes ch pr) <= round_max.
Proof.
  destruct Hs as ([_ L0] & [_ L1] & L2 & [_ L3] & [_ L4] & L5). cbv zeta in *. unfold serialize_round, round_bytes, round_max. rewrite Hc. cbn [bind].
  rewrite (slice_all (p_view3Commitment pr)), (slice_all (p_communicatedBits pr)), (slice_all (p_seed1 pr)), (slice_all (p_seed2 pr)) by auto.
  assert (X : (ch =? 1) || (ch =? 2) = true -> length (p_inputShare pr) = stateSizeBytes P) by (intros H; apply L2; intros ->; discriminate H).
  assert (Y : (if (ch =? 1) || (ch =? 2) then slice (p_inputShare pr) 0 (stateSizeBytes P) else Ok []) = Ok (if (ch =? 1) || (ch =? 2) then p_inputShare pr else [])).
  { destruct (_ || _); [|reflexivity]. rewrite slice_all; auto. symmetry. auto. }
  assert (Z : (if is_UR (transf P) then slice (p_view3UnruhG pr) 0 (if ch =? 0 then UnruhGWithInputBytes P else UnruhGWithoutInputBytes P) else Ok []) = Ok (if is_UR (transf P) then firstn (G_bytes P ch) (p_view3UnruhG pr) else [])).
  { destruct (is_UR (transf P)) eqn:Hu; [|reflexivity]. destruct (L5 eq_refl) as [_ L5']. rewrite firstn_length in L5'. fold (G_bytes P ch). apply slice0_ok. lia. }
  rewrite Z, Y. cbn [bind]. split; [reflexivity|]. rewrite !app_length. pose proof G_max as GM.
  destruct (is_UR (transf P)) eqn:Hu.
  - destruct (GM eq_refl) as (_ & _ & G). destruct (L5 eq_refl) as [_ L5']. rewrite L5'. destruct (_ || _); [rewrite X by auto|cbn [length]]; lia.
  - destruct (_ || _); [rewrite X by auto|]; cbn [length]; lia.
Qed.

Lemma h_round y out : at_out y out -> iv y 2 = k -> length out + round_max <= length buf -> runs U (c_put_round P) y (fun z => at_out z (out ++ round_bytes ch pr)).
Proof.
  intros A I2 Hb. destruct Hs as (L0 & L1 & L2 & L3 & L4 & L5). cbv zeta in *. destruct pos' as (_ & P1 & P2 & P4 & P3). destruct model_round as [_ Lr]. revert Lr.
  unfold round_bytes, c_put_round. set (b := (ch =? 1) || (ch =? 2)). intros Lr. rewrite !app_length in Lr. destruct L0 as [L0 N0], L1 as [L1 N1], L3 as [L3 N3], L4 as [L4 N4].
  assert (Pb : 5 <= proof_bufs P) by (unfold proof_bufs; destruct (is_UR _); lia).
  destruct (se_sig _ _ _ _ _ _ _ HM) as (_ & Sc & _ & Lc & _). pose proof (numBytes_spec (2 * T)) as Hnb. fold T in Lc.
  apply runs_seq. apply (h_getChallenge n0 m0 U ol _ _ _ y (wrote out) (q (inner P + 2)) cb ch).
  { cbn [P0 peval ieval]. rewrite (ao_pv _ _ A), (se_chal _ _ _ _ _ _ _ HM). reflexivity. }
  { left. apply ro_buf; [lia|unfold signer_count; fold T; nia|exact Sc|]. unfold signer_size. rewrite (proj2 (Nat.ltb_ge _ (inner P))), (proj2 (Nat.eqb_neq _ (inner P))), (proj2 (Nat.eqb_neq _ (inner P + 1))), Nat.eqb_refl by lia. fold T. lia. }
  { rewrite (ao_nx _ _ A). apply (ao_hp _ _ A). }
  { cbn [ieval]. rewrite I2. exact Hc. }
  { cbn [ieval]. rewrite I2. lia. }
  intros u. set (y0 := mkState (upd (iv y) 1 ch) (dv y) (pv y) (mm y) (nx y) u).
  assert (A0 : at_out y0 out) by (destruct A; split; auto). assert (C0 : iv y0 1 = ch) by reflexivity. assert (K0 : iv y0 2 = k) by exact I2. clearbody y0. clear A I2 y u.
  apply runs_seq. apply (h_part 4 _ (p_view3Commitment pr) y0 out); side. intros y1 A1 C1 K1. rewrite C0 in C1.
  apply runs_seq. apply (runs_mono U _ _ (fun z => at_out z ((out ++ p_view3Commitment pr) ++ if is_UR (transf P) then firstn (G_bytes P ch) (p_view3UnruhG pr) else []) /\ iv z 1 = ch /\ iv z 2 = k)).
  { destruct (is_UR (transf P)) eqn:Hu; [|apply runs_skip; rewrite app_nil_r; auto]. destruct (G_max Hu) as (G1 & G2 & _). assert (Pb6 : proof_bufs P = 6) by (unfold proof_bufs; rewrite Hu; reflexivity). destruct (L5 eq_refl) as [L5' N5].
    eapply runs_if; [cbn [ceval ieval]; rewrite C1; reflexivity|].
    replace (if ch =? 0 then c_put (of_proof P 5) (UnruhGWithInputBytes P) else c_put (of_proof P 5) (UnruhGWithoutInputBytes P)) with (c_put (of_proof P 5) (G_bytes P ch)) by (unfold G_bytes; destruct (ch =? 0); reflexivity).
    apply (h_part 5 _ (firstn (G_bytes P ch) (p_view3UnruhG pr)) y1 (out ++ p_view3Commitment pr)); side. intros z Z1 Z2 Z3. split; [exact Z1|]. split; congruence. }
  intros y2 (A2 & C2 & K2). revert A2 Lr. set (g := if is_UR (transf P) then _ else _). intros A2 Lr.
  apply runs_seq. apply (h_part 3 _ (p_communicatedBits pr) y2 ((out ++ p_view3Commitment pr) ++ g)); side. intros y3 A3 C3 K3. rewrite C2 in C3.
  apply runs_seq. apply (h_part 0 _ (p_seed1 pr) y3 (((out ++ p_view3Commitment pr) ++ g) ++ p_communicatedBits pr)); side. intros y4 A4 C4 K4. rewrite C3 in C4.
  apply runs_seq. apply (h_part 1 _ (p_seed2 pr) y4 ((((out ++ p_view3Commitment pr) ++ g) ++ p_communicatedBits pr) ++ p_seed1 pr)); side. intros y5 A5 C5 K5. rewrite C4 in C5.
  assert (Rs : forall z, at_out z ((((((out ++ p_view3Commitment pr) ++ g) ++ p_communicatedBits pr) ++ p_seed1 pr) ++ p_seed2 pr) ++ (if b then p_inputShare pr else [])) ->
     at_out z (out ++ p_view3Commitment pr ++ g ++ p_communicatedBits pr ++ p_seed1 pr ++ p_seed2 pr ++ (if b then p_inputShare pr else []))) by (intros z; rewrite <- !app_assoc; auto).
  assert (Pi : b = true -> runs U (c_put (of_proof P 2) (stateSizeBytes P)) y5 (fun z => at_out z (out ++ p_view3Commitment pr ++ g ++ p_communicatedBits pr ++ p_seed1 pr ++ p_seed2 pr ++ (if b then p_inputShare pr else [])))).
  { intros Eb. rewrite Eb in *. destruct L2 as [L2 N2]; [intros ->; discriminate Eb|].
    apply (h_part 2 _ (p_inputShare pr) y5 (((((out ++ p_view3Commitment pr) ++ g) ++ p_communicatedBits pr) ++ p_seed1 pr) ++ p_seed2 pr)); side; auto. }
  eapply runs_if; [cbn [ceval ieval]; rewrite C5; reflexivity|]. unfold b in *. destruct (ch =? 1); [apply Pi; reflexivity|].
  eapply runs_if; [cbn [ceval ieval]; rewrite C5; reflexivity|]. destruct (ch =? 2); [apply Pi; reflexivity|]. apply runs_skip. apply Rs. cbn [orb]. rewrite app_nil_r. exact A5.
Qed.
End Rnd.

Definition rbk (k : nat) : bytes := match nth_error (s_proofs s) k with Some pr => round_bytes (chalv cb k) pr | None => [] end.
Definition outk (k : nat) : bytes := cb ++ s_salt s ++ concat (map rbk (seq 0 k)).

Lemma stored_round k : k < T -> exists pr, nth_error (s_proofs s) k = Some pr /\ getChallenge cb k = Ok (chalv cb k) /\ proof_stored P st q k (chalv cb k) pr.
Proof.
  intros Hk. destruct (se_sig _ _ _ _ _ _ _ HM) as (_ & _ & _ & Lc & A). fold T in Lc. destruct (A k Hk) as (ch & pr & B & C & D). exists pr. pose proof (numBytes_spec (2 * T)) as Hnb.
  assert (G : getChallenge cb k = Ok (chalv cb k)) by (apply getChallenge_ok; lia). assert (Ec : ch = chalv cb k) by congruence. subst ch. auto.
Qed.

Lemma rbk_len k : k < T -> length (rbk k) <= round_max.
Proof. intros Hk. destruct (stored_round k Hk) as (pr & A & B & C). unfold rbk. rewrite A. apply (model_round k (chalv cb k) pr Hk B C). Qed.

Lemma outk_S k : outk (S k) = outk k ++ rbk k.
Proof. unfold outk. rewrite seq_S, map_app, concat_app. cbn [map concat Nat.add]. rewrite app_nil_r, <- !app_assoc. reflexivity. Qed.

Lemma outk_len k : k <= T -> length (outk k) <= numBytes (2 * T) + saltSizeBytes P + k * round_max.
Proof.
  destruct (se_sig _ _ _ _ _ _ _ HM) as (_ & _ & Ls & Lc & _). fold T in Lc. induction k as [|k IH]; intros Hk.
  - unfold outk. cbn [seq map concat]. rewrite app_nil_r, app_length. lia.
  - rewrite outk_S, app_length. specialize (IH ltac:(lia)). pose proof (rbk_len k ltac:(lia)). lia.
Qed.

Lemma required_max : serialize_bytesRequired P = numBytes (2 * T) + saltSizeBytes P + T * round_max.
Proof. unfold serialize_bytesRequired, round_max. fold T. destruct (is_UR (transf P)); nia. Qed.

Lemma model_serialize : serializeSignature P s buf len = if len <? serialize_bytesRequired P then Ok None else Ok (Some (length (outk T), blit_list buf 0 (outk T))).
Proof.
  unfold serializeSignature. destruct (Nat.ltb_spec len (serialize_bytesRequired P)) as [|Hl]; [reflexivity|].
  destruct (se_sig _ _ _ _ _ _ _ HM) as (_ & _ & Ls & Lc & _). destruct (se_room _ _ _ _ _ _ _ HM) as (_ & Hb & _). fold T in Lc |- *.
  rewrite (slice_all cb), (slice_all (s_salt s)) by auto. cbn [bind].
  rewrite (mapM_seq_pure T 0 _ rbk).
  - cbn [bind]. rewrite blit_ok; [reflexivity|]. fold (outk T). pose proof (outk_len T (le_n T)). rewrite required_max in Hl. lia.
  - intros i Hi. destruct (stored_round i ltac:(lia)) as (pr & A & B & C). unfold rd, rbk. rewrite A. cbn [bind]. apply (model_round i (chalv cb i) pr); auto; lia.
Qed.

Lemma start_out : heap n0 m0 ol n0 m0 (wrote []).
Proof.
  destruct (se_room _ _ _ _ _ _ _ HM) as ((A & B) & _ & _). split.
  - split; cbn [ol cnt reg sz]; [lia|intros; apply A|intros; lia].
  - intros k _. exact A.
  - intros k _. reflexivity.
  - intros k _. exact B.
  - intros b _. auto.
Qed.

Lemma run_serialize : runs U (c_serialize P) st (fun z => nx z = n0 /\ chg n0 m0 (mm z) [(qb, length buf)] /\
  match serializeSignature P s buf len with
  | Ok None => iv z 5 = 0 /\ mm z = mm st
  | Ok (Some (l, buf')) => iv z 5 = 1 /\ iv z 4 = l /\ CodeZkbSpec.holds z qb buf'
  | _ => False
  end).
Proof.
  rewrite model_serialize. unfold c_serialize. fold T. destruct (se_sig _ _ _ _ _ _ _ HM) as (Ss & Sc & Ls & Lc & _). fold T in Lc. destruct (se_room _ _ _ _ _ _ _ HM) as ((A & B) & Hb & _).
  eapply runs_if; [cbn [ceval ieval]; rewrite (se_len _ _ _ _ _ _ _ HM); reflexivity|]. destruct (Nat.ltb_spec len (serialize_bytesRequired P)) as [Hl|Hl].
  { apply runs_iset. unfold set_iv. cbn [iv mm nx upd Nat.eqb ieval]. split; [reflexivity|]. split; [intros b _; auto|]. auto. }
  rewrite required_max in Hl. pose proof (numBytes_spec (2 * T)) as Hnb. pose proof (w1_T P HP1) as HT. fold T in HT. destruct pos' as (PS & _).
  apply runs_seq, runs_iset, runs_seq, runs_iset. unfold set_iv. cbn [iv dv pv mm nx ct ieval].
  set (y0 := mkState _ _ _ _ _ _). assert (A0 : at_out y0 []) by (split; try reflexivity; apply start_out). clearbody y0.
  assert (Rc : ro n0 m0 ol (q (inner P + 2)) cb).
  { apply ro_buf; [lia|unfold signer_count; fold T; lia|exact Sc|]. unfold signer_size. rewrite (proj2 (Nat.ltb_ge _ (inner P))), (proj2 (Nat.eqb_neq _ (inner P))), (proj2 (Nat.eqb_neq _ (inner P + 1))), Nat.eqb_refl by lia. fold T. lia. }
  assert (Rs : ro n0 m0 ol (q (inner P + 1)) (s_salt s)).
  { apply ro_buf; [lia|unfold signer_count; fold T; lia|exact Ss|]. unfold signer_size. rewrite (proj2 (Nat.ltb_ge _ (inner P))), (proj2 (Nat.eqb_neq _ (inner P))), Nat.eqb_refl by lia. lia. }
  apply runs_seq. apply (h_put _ _ y0 [] (q (inner P + 2)) cb); auto; [|apply Sc|lia|cbn [length]; lia|].
  { cbn [P0 peval ieval]. rewrite (ao_pv _ _ A0), (se_chal _ _ _ _ _ _ _ HM). reflexivity. }
  intros y1 A1 _ _. cbn [app] in A1.
  apply runs_seq. apply (h_put _ _ y1 cb (q (inner P + 1)) (s_salt s)); auto; [|apply Ss|lia|].
  { cbn [P0 peval ieval]. rewrite (ao_pv _ _ A1), (se_salt _ _ _ _ _ _ _ HM). reflexivity. }
  intros y2 A2 _ _. apply (runs_for U (fun k z => at_out z (outk k))).
  - unfold outk. cbn [seq map concat]. rewrite app_nil_r. exact A2.
  - cbn [ieval]. rewrite Nat.sub_0_r, Nat.add_0_r, Nat.div_1_r. intros k y Hk Ay. cbn [Nat.add]. rewrite Nat.mul_1_r. rewrite outk_S.
    destruct (stored_round k Hk) as (pr & B1 & B2 & B3). pose proof (outk_len k ltac:(lia)) as Lo. pose proof (rbk_len k Hk) as _. 
    assert (Er : rbk k = round_bytes (chalv cb k) pr) by (unfold rbk; rewrite B1; reflexivity). rewrite Er.
    apply (h_round k (chalv cb k) pr Hk B2 B3); [|unfold set_iv; cbn [iv]; apply upd_eq|].
    + destruct Ay. split; auto.
    + assert (k * round_max + round_max <= T * round_max) by nia. lia.
  - cbn [ieval]. rewrite Nat.sub_0_r, Nat.add_0_r, Nat.div_1_r. intros z [Z1 Z2 Z3 Z4 Z5]. split; [exact Z2|]. split; [exact (heap_chg _ _ _ _ _ _ Z5)|].
    split; [exact Z4|]. split; [exact Z3|]. split; [rewrite Z2; exact (heap_pts _ _ _ _ _ _ Z5 0 ltac:(cbn; lia))|exact (heap_ok _ _ _ _ _ _ Z5 0 ltac:(cbn; lia))].
Qed.
End S.

Theorem serialize_code U p P st q qb buf len s :
  get_param_set p = Some P -> is_picnic3 p = false -> serialize_call P st q qb buf len s ->
  exists st' t, run U (c_serialize P) st = Some (st', t) /\
    nx st' = nx st /\ chg (nx st) (mm st) (mm st') [(qb, length buf)] /\
    match serializeSignature P s buf len with
    | Ok None => iv st' 5 = 0 /\ mm st' = mm st
    | Ok (Some (l, buf')) => iv st' 5 = 1 /\ iv st' 4 = l /\ CodeZkbSpec.holds st' qb buf'
    | _ => False
    end.
Proof.
  intros HP Hp HM. pose proof (run_serialize U P (get_param_set_wfP1 p P HP Hp) (CodeVerRoundThm.get_param_set_digest p P HP) (get_param_set_pos p P HP) st q qb buf len s HM) as R.
  unfold runs in R. destruct (run U (c_serialize P) st) as [[z t]|]; [|contradiction]. exists z, t. split; [reflexivity|exact R].
Qed.

(** Of the plaintext, signing reads whole words of the block only. *)
Section Trunc.
Variables (E : env) (P : paramset) (HP : wfP P) (pt : bytes) (HL : 4 * stateSizeWords P <= length pt).
Notation pt' := (firstn (4 * stateSizeWords P) pt).

Lemma slice_trunc n : n <= 4 * stateSizeWords P -> slice pt' 0 n = slice pt 0 n.
Proof. intros H. rewrite !slice0_ok by (rewrite ?firstn_length; lia). rewrite firstn_firstn, Nat.min_l by exact H. reflexivity. Qed.
Lemma mpc_trunc tape views n : mpc_LowMC E P tape views pt' n = mpc_LowMC E P tape views pt n.
Proof. unfold mpc_LowMC, mpc_xor_constant, xor_array. rewrite slice_trunc by lia. reflexivity. Qed.
Lemma sign_round_trunc k a salt sk pub : sign_round E P k a salt sk pub pt' = sign_round E P k a salt sk pub pt.
Proof.
  unfold sign_round. repeat first [rewrite mpc_trunc; reflexivity|match goal with |- bind ?x _ = bind ?x _ => destruct x; cbn [bind]; [|reflexivity..] end|match goal with |- (let '(_, _) := ?x in _) = _ => destruct x end|match goal with |- (if ?b then _ else _) = (if ?b then _ else _) => destruct b; [reflexivity|] end].
Qed.
Lemma sign_rounds_trunc a salt sk pub n : forall k, sign_rounds E P n k a salt sk pub pt' = sign_rounds E P n k a salt sk pub pt.
Proof. induction n as [|n IH]; intros k; [reflexivity|]. cbn [sign_rounds]. rewrite sign_round_trunc. destruct (sign_round E P k a salt sk pub pt) as [[rd|]| | |]; cbn [bind]; [|reflexivity..]. rewrite IH. reflexivity. Qed.
Lemma H3_trunc fuel pub vo co chal salt msg gs : H3 E P fuel pub pt' vo co chal salt msg gs = H3 E P fuel pub pt vo co chal salt msg gs.
Proof. destruct (wfP_block P HP) as [W1 _]. unfold H3, H3_input. rewrite slice_trunc by exact W1. reflexivity. Qed.
Lemma sign_trunc fuel sk pub msg : sign_picnic1 E P fuel sk pub pt' msg = sign_picnic1 E P fuel sk pub pt msg.
Proof.
  destruct (wfP_block P HP) as [W1 _]. unfold sign_picnic1, computeSeeds. rewrite slice_trunc by exact W1.
  match goal with |- bind ?x _ = bind ?x _ => destruct x as [a| | |]; cbn [bind]; [|reflexivity..] end. destruct (salt_of P a) as [salt| | |]; cbn [bind]; [|reflexivity..].
  rewrite sign_rounds_trunc. destruct (sign_rounds _ _ _ _ _ _ _ _ _) as [[l|]| | |]; cbn [bind]; [|reflexivity..]. rewrite H3_trunc. reflexivity.
Qed.
End Trunc.

Theorem picnic_sign_code U E P st q qb buf len k msg fuel :
  locals_ok U -> get_param_set (sk_params k) = Some P -> is_picnic3 (sk_params k) = false -> env_bytes_ok E -> constants_ok E P -> sk_wf k ->
  api_call P E st q qb buf len k msg ->
  exists st' t, run U (c_picnic_sign P (length msg) fuel) st = Some (st', t) /\
    nx st' = nx st /\ chg (nx st) (mm st) (mm st') (signer_writes P q ++ [(qb, length buf)]) /\
    match picnic_sign (with_shake E) fuel k msg buf len with
    | Ok (r, buf', l) => iv st' 5 = (if r then 1 else 0) /\ iv st' 10 = l /\ CodeZkbSpec.holds st' qb buf'
    | NoFuel => iv st' 2 = 1 /\ iv st' 3 = 0
    | _ => False
    end.
Proof.
  intros HU HP Hp HE HC HW [HS H10 H25 [HB HL] HA]. set (sk := sk_data k) in *. set (pub := pk_ciphertext (sk_pk k)) in *. set (pt := pk_plaintext (sk_pk k)) in *. set (pt' := firstn (4 * stateSizeWords P) pt) in *.
  pose proof (get_param_set_wfP1 _ P HP Hp) as HP1. pose proof (wf_W3 P (w1_wfP P HP1)) as W3.
  assert (Lpt : 4 * stateSizeWords P <= length pt) by (destruct HW as (_ & [Hl _] & _); unfold pt; rewrite Hl; exact W3).
  unfold picnic_sign. rewrite HP, Hp. cbn [negb]. fold sk pub pt. rewrite <- (sign_trunc (with_shake E) P (w1_wfP P HP1) pt Lpt fuel sk pub msg). fold pt'.
  set (Q := fun z : state => nx z = nx st /\ chg (nx st) (mm st) (mm z) (signer_writes P q ++ [(qb, length buf)]) /\
    match (r <- (s <- sign_picnic1 (with_shake E) P fuel sk pub pt' msg ;; match s with Some s0 => serializeSignature P s0 buf len | None => Ok None end) ;; match r with Some (n, buf0) => Ok (true, buf0, n) | None => Ok (false, buf, len) end) with
    | Ok (r, buf', l) => iv z 5 = (if r then 1 else 0) /\ iv z 10 = l /\ CodeZkbSpec.holds z qb buf'
    | NoFuel => iv z 2 = 1 /\ iv z 3 = 0
    | _ => False
    end).
  enough (R : runs U (c_picnic_sign P (length msg) fuel) st Q).
  { unfold runs in R. destruct (run U (c_picnic_sign P (length msg) fuel) st) as [[z t]|]; [|contradiction]. exists z, t. split; [reflexivity|exact R]. }
  unfold c_picnic_sign. apply runs_seq, runs_iset. unfold set_iv. cbn [iv dv pv mm nx ct ieval]. apply runs_seq.
  eapply runs_call; [cbn [pargevals pargeval pevals pv]; reflexivity|]. cbn [map pv mm nx ct iv].
  set (y := mkState (args 0 []) _ _ _ _ _).
  assert (HY : signer_call P E y q sk pub pt' msg) by (destruct HS; split; assumption).
  destruct (sign_code U E (sk_params k) P y q sk pub pt' msg fuel HU HP Hp HE HC HY) as (z & t & Rz & Cz & Nz & Mz). cbn [y nx mm] in Cz, Nz.
  unfold runs at 1. rewrite Rz. cbn [iv copy_back fst snd]. 
  assert (HZ : CodeZkbSpec.holds z qb buf).
  { destruct HB as [B1 B2]. split; [|exact B2]. rewrite Nz. apply (pts_chg _ _ _ _ _ _ Cz B1). intros p n Hi. unfold signer_writes in Hi. apply in_map_iff in Hi. destruct Hi as (i & Ei & Hi). injection Ei as <- <-. apply in_seq in Hi. apply disj_sym, HA. lia. }
  assert (CQ : chg (nx st) (mm st) (mm z) (signer_writes P q ++ [(qb, length buf)])).
  { apply (chg_mono _ _ _ _ _ Cz). intros p n Hi _. exists p, n. split; [apply in_or_app; auto|]. lia. }
  set (w := mkState _ _ _ (mm z) (nx z) _).
  assert (W2 : iv w 2 = iv z 2) by reflexivity. assert (W3' : iv w 3 = iv z 3) by reflexivity. assert (W5 : iv w 5 = 0) by reflexivity. assert (W10 : iv w 10 = len) by exact H10.
  assert (WP : pv w = pv st) by reflexivity. assert (WM : mm w = mm z) by reflexivity. assert (WN : nx w = nx st) by exact Nz. clearbody w.
  assert (HZw : CodeZkbSpec.holds w qb buf) by (destruct HZ as [Z1 Z2]; split; [rewrite WN, <- Nz, WM; exact Z1|exact Z2]).
  destruct (sign_picnic1 (with_shake E) P fuel sk pub pt' msg) as [[s|]| | |] eqn:Es; try contradiction.
  - destruct Mz as (M2 & M3 & M4). eapply runs_if; [cbn [ceval ieval]; rewrite W2, M2; reflexivity|]. cbn [Nat.eqb].
    eapply runs_if; [cbn [ceval ieval]; rewrite W3', M3; reflexivity|]. cbn [Nat.eqb]. apply runs_seq.
    eapply runs_call; [cbn [pargevals pargeval pevals]; reflexivity|]. cbn [map ieval]. rewrite W10, WP. set (v := mkState _ _ _ _ _ _).
    assert (HV : serialize_call P v q qb buf len s).
    { split; cbn [v iv pv args nth]; auto.
      - split; [destruct HZ as [Z1 Z2]; split; [cbn [v nx mm]; rewrite WN, WM, <- Nz; exact Z1|exact Z2]|]. split; [exact HL|]. intros i _ Hi. apply HA, Hi.
      - assert (X : forall p l, CodeZkbSpec.holds z p l -> CodeZkbSpec.holds v p l) by (intros p l [X1 X2]; split; [cbn [v nx mm]; rewrite WN, WM, <- Nz; exact X1|exact X2]).
        destruct M4 as (S1 & S2 & S3 & S4 & S5). split; [apply X, S1|]. split; [apply X, S2|]. split; [exact S3|]. split; [exact S4|]. intros i Hi. destruct (S5 i Hi) as (ch & pr & D1 & D2 & D3). exists ch, pr. split; [exact D1|]. split; [exact D2|].
        destruct D3 as (F0 & F1 & F2 & F3 & F4 & F5). cbv zeta in *. split; [split; [apply X|]; apply F0|]. split; [split; [apply X|]; apply F1|]. split; [intros N; specialize (F2 N); split; [apply X|]; apply F2|].
        split; [split; [apply X|]; apply F3|]. split; [split; [apply X|]; apply F4|]. intros Hu. specialize (F5 Hu). split; [apply X|]; apply F5.
      - exact (sg_chal _ _ _ _ _ _ _ _ HS).
      - exact (sg_salt _ _ _ _ _ _ _ _ HS).
      - exact (sg_proofs _ _ _ _ _ _ _ _ HS). }
    destruct (serialize_code U (sk_params k) P v q qb buf len s HP Hp HV) as (x & t' & Rx & Nx & Cx & Mx). cbn [v nx mm] in Nx, Cx. rewrite WN, WM in Cx. rewrite WN in Nx.
    unfold runs at 1. rewrite Rx. cbn [copy_back fst snd].
    assert (CX : chg (nx st) (mm st) (mm x) (signer_writes P q ++ [(qb, length buf)])).
    { eapply chg_trans; [exact CQ|exact Cx|auto|]. intros i Hi. apply in_or_app. right. exact Hi. }
    set (u := mkState _ _ _ (mm x) (nx x) _). assert (U5 : iv u 5 = iv x 5) by reflexivity. assert (U6 : iv u 6 = iv x 4) by reflexivity. assert (U10 : iv u 10 = len) by exact W10. assert (UM : mm u = mm x) by reflexivity. assert (UN : nx u = nx x) by reflexivity. clearbody u.
    unfold Q. clear Q. cbn [bind]. destruct (serializeSignature P s buf len) as [[[l buf']|]| | |]; try contradiction.
    + destruct Mx as (X5 & X4 & Xh). eapply runs_if; [cbn [ceval ieval]; rewrite U5, X5; reflexivity|]. cbn [Nat.eqb]. apply runs_iset. unfold set_iv. cbn [bind iv mm nx ieval upd Nat.eqb].
      rewrite UM, UN. split; [exact Nx|]. split; [exact CX|]. split; [congruence|]. split; [congruence|]. destruct Xh as [Xa Xb]. split; [exact Xa|exact Xb].
    + destruct Mx as (X5 & Xm). eapply runs_if; [cbn [ceval ieval]; rewrite U5, X5; reflexivity|]. cbn [Nat.eqb]. apply runs_skip. cbn [bind].
      rewrite UM, UN. split; [exact Nx|]. split; [exact CX|]. split; [congruence|]. split; [exact U10|]. destruct HZw as [Xa Xb]. split; [rewrite UM, UN, Xm, Nx, <- WN; exact Xa|exact Xb].
  - eapply runs_if; [cbn [ceval ieval]; rewrite W2, Mz; reflexivity|]. cbn [Nat.eqb]. apply runs_skip. unfold Q. cbn [bind]. rewrite WM. auto.
  - destruct Mz as (M2 & M3). eapply runs_if; [cbn [ceval ieval]; rewrite W2, M2; reflexivity|]. cbn [Nat.eqb].
    eapply runs_if; [cbn [ceval ieval]; rewrite W3', M3; reflexivity|]. cbn [Nat.eqb]. apply runs_skip. unfold Q. cbn [bind]. rewrite WM. split; [exact WN|]. split; [exact CQ|]. split; congruence.
Qed.
