(** [computeAuxTape] on memory with pointers: the call, and the theorem forms. *)

From Coq Require Import List NArith Arith Bool Lia ZifyBool ZifyNat ZifyN.
From Verif Require Import Base Params Env Spec LowMC Tree Picnic3 MiniC CodeLowMC CodeP3 CodeSpec CodeZkbSpec CodeP3Spec BaseFacts ParamFacts LowMCFacts
  ZkbChal P3Tape P3Aux P3Online MiniCFacts CodeRules CodeLowMCProofs CodeHeap CodeZkbProofs CodeZkbBits CodeZkbMpc CodeP3Proofs CodeP3Lin CodeP3Aux CodeP3AuxRun.
Import ListNotations.
Local Opaque pack.

Lemma nth_error_ext {A} (l : list A) : forall l', (forall i, nth_error l i = nth_error l' i) -> l = l'.
Proof.
  induction l as [|x l IH]; intros [|y l'] H; [reflexivity|discriminate (H 0)|discriminate (H 0)|].
  pose proof (H 0) as H0. injection H0 as <-. f_equal. apply IH. intros i. exact (H (S i)).
Qed.
Lemma list_set_id (l : list bytes) : forall k, k < length l -> list_set l k (nth k l []) = l.
Proof. induction l as [|a l IH]; intros [|k] Hk; cbn [list_set nth length] in *; try lia; [reflexivity|]. f_equal. apply IH. lia. Qed.

(** The layout of a list of regions. *)
Definition lay_of (ws : list (ptr * nat)) : layout :=
  mkLayout (length ws) (fun k => fst (nth k ws ((0, 0), 0))) (fun k => snd (nth k ws ((0, 0), 0))).

Lemma lay_nth ws k : k < length ws -> nth_error ws k = Some (reg (lay_of ws) k, sz (lay_of ws) k).
Proof. intros H. cbn [lay_of reg sz]. rewrite <- surjective_pairing. apply nth_error_nth'. exact H. Qed.

Lemma heap_of n m ws c : (forall k p s, nth_error ws k = Some (p, s) -> pts n m p (c k) /\ length (c k) = s /\ bytes_ok (c k)) -> apart ws ->
  heap n m (lay_of ws) n m c.
Proof.
  intros H HA.
  assert (X : forall k, k < cnt (lay_of ws) -> pts n m (reg (lay_of ws) k) (c k) /\ length (c k) = sz (lay_of ws) k /\ bytes_ok (c k)).
  { intros k Hk. apply H, lay_nth. exact Hk. }
  split.
  - split; [lia| |].
    + intros k Hk. apply X, Hk.
    + intros i j Hi Hj Hne. apply (HA i j); auto; apply lay_nth; auto.
  - intros k Hk. apply X, Hk.
  - intros k Hk. apply X, Hk.
  - intros k Hk. apply X, Hk.
  - apply chg_refl.
Qed.

Lemma ro_of st ws q l : reads st ws q l -> ro (nx st) (mm st) (lay_of ws) q l.
Proof. intros (A & _ & O). split; [exact A|]. intros k Hk. apply O. apply (nth_error_In ws k). apply lay_nth. exact Hk. Qed.

Lemma regions_of ws : regions (lay_of ws) = ws.
Proof.
  unfold regions. cbn [lay_of cnt]. apply nth_error_ext. intros i. destruct (Nat.lt_ge_cases i (length ws)) as [Hi|Hi].
  - rewrite nth_error_map. rewrite (lay_nth ws i Hi). rewrite (List.nth_error_nth' (seq 0 (length ws)) 0) by (rewrite seq_length; exact Hi). rewrite seq_nth by exact Hi. reflexivity.
  - rewrite (proj2 (nth_error_None ws i)) by exact Hi. apply nth_error_None. rewrite map_length, seq_length. exact Hi.
Qed.

(** The environment whose uninitialised memory is what the local arrays hold. *)
Definition env_locals (E : env) (a b c d : bytes) : env :=
  mkEnv (xof E)
    (fun s i k => if negb (k =? 64) then uninit E s i k
                  else if s =? site_aux_roundKey then a else if s =? site_aux_y then b else if s =? site_aux_key then c
                  else if s =? site_aux_key0 then d else uninit E s i k)
    (LMatrix E) (LMatrixInv E) (KMatrix E) (KMatrixInv E) (RConstant E).

Lemma env_locals_ok E a b c d : env_bytes_ok E -> (forall x, In x [a; b; c; d] -> length x = 64 /\ bytes_ok x) -> env_bytes_ok (env_locals E a b c d).
Proof.
  intros [A B] H. split; [exact A|]. intros s i k. cbn [env_locals uninit]. destruct (Nat.eqb_spec k 64) as [->|Hk]; cbn [negb]; [|apply B].
  destruct (s =? site_aux_roundKey); [apply H; cbn; auto|]. destruct (s =? site_aux_y); [apply H; cbn; auto|]. destruct (s =? site_aux_key); [apply H; cbn; auto|].
  destruct (s =? site_aux_key0); [apply H; cbn; auto|apply B].
Qed.

Section S.
Variables (U : nat -> nat -> bytes) (HU : locals_ok U) (E : env) (P : paramset) (HP3 : wfP3 P) (HE : env_bytes_ok E) (HC : constants_ok E P) (HI : inverses_ok E P).
Variables (st : state) (tl : list bytes) (qt : ptr) (qi : option ptr).
Hypothesis HM : aux_call E P st tl qt qi.
Let n := nx st.
Let ws := aux_writes P qt qi.
Let tS := p3_tapeSize P.

Lemma aux_rows : rows 16 tS tl.
Proof.
  destruct (ac_len _ _ _ _ _ _ HM) as [A B]. split; [exact A|]. intros i Hi. split; [apply B, Hi|].
  destruct (Nat.eq_dec i 15) as [->|Hne]; [apply (ac_last _ _ _ _ _ _ HM)|].
  destruct (ac_tapes _ _ _ _ _ _ HM i ltac:(lia)) as (q & _ & R). apply R.
Qed.

Lemma aux_heap : exists l, heap n (mm st) (lay_of ws) n (mm st) (fun k => if k =? 0 then nth 15 tl [] else l).
Proof.
  pose proof (ac_apart _ _ _ _ _ _ HM) as HA. fold ws in HA. destruct aux_rows as [_ HR]. destruct (HR 15 ltac:(lia)) as [L15 B15].
  pose proof (ac_inputs _ _ _ _ _ _ HM) as Hin. pose proof (ac_last _ _ _ _ _ _ HM) as [_ [P15 _]].
  unfold ws, aux_writes in *. destruct qi as [q|].
  - destruct (Hin q eq_refl) as (_ & l & [Pl Bl] & Ll). exists l. apply heap_of; [|exact HA]. intros [|[|k]] p s H; cbn [nth_error] in H.
    + injection H as <- <-. cbn [Nat.eqb]. split; [exact P15|]. split; [exact L15|exact B15].
    + injection H as <- <-. cbn [Nat.eqb]. split; [exact Pl|]. split; [exact Ll|exact Bl].
    + destruct k; discriminate.
  - exists []. apply heap_of; [|exact HA]. intros [|k] p s H; cbn [nth_error] in H; [|destruct k; discriminate].
    injection H as <- <-. cbn [Nat.eqb]. split; [exact P15|]. split; [exact L15|exact B15].
Qed.

Lemma runs_computeAuxTape (Q : state -> Prop) :
  (forall m' u T' key, computeAuxTape E P (mkTapes tl 0) = Ok (mkTapes T' 0, key) -> (forall i, i < 15 -> nth i T' [] = nth i tl []) ->
     pts n m' qt (nth 15 T' []) -> (forall q, qi = Some q -> pts n m' q key) -> chg n (mm st) m' ws ->
     Q (mkState (upd (iv st) 0 0) (dv st) (pv st) m' n u)) ->
  runs U (c_computeAuxTape P 0 1 2 3 4 0 (IV 1)) st Q.
Proof.
  intros HQ. pose proof HM as [Hpos Hfl [Ll1 _] [E15 H15] HT HIn HA HK HKI HLI]. fold ws in HT, HA, HK, HKI, HLI.
  pose proof aux_rows as HR. destruct aux_heap as (l0 & H0). set (c0 := fun k : nat => _) in H0.
  unfold c_computeAuxTape. eapply runs_call; [reflexivity|]. cbn [map ieval]. rewrite Hpos, Hfl. unfold computeAuxTape_body.
  match goal with |- runs U (Loc 5 _ (Loc 6 _ (Loc 7 _ (Loc 8 _ (Loc 9 _ ?s))))) _ _ => change (runs U (locs 64 [5; 6; 7; 8; 9] s)) with (runs U (locs 64 [5; 6; 7; 8; 9] s)); set (body := s) end.
  change (Loc 5 _ _) with (locs 64 [5; 6; 7; 8; 9] body).
  eapply (h_locs n (mm st) U 64 [5; 6; 7; 8; 9] body HU (lay_of ws) _ c0); [exact H0|]. cbn [length Nat.add iv dv pv mm nx ct]. fold n.
  set (L5 := lpush 64 (lay_of ws) n [5; 6; 7; 8; 9]). set (pv5 := lpv _ _ _). intros m1 c1 H1 Hc1.
  set (b := length ws).
  assert (Hb : 0 < b) by (unfold b, ws, aux_writes; cbn [length]; lia).
  assert (HL5 : cnt L5 = b + 5) by (unfold L5; rewrite lpush_cnt; reflexivity).
  assert (G : forall i, i < b -> reg L5 i = reg (lay_of ws) i /\ sz L5 i = sz (lay_of ws) i) by (intros i Hi; apply lpush_old; exact Hi).
  assert (G' : forall i, i < 5 -> reg L5 (b + i) = (n + i, 0) /\ sz L5 (b + i) = 64) by (intros i Hi; apply (lpush_new 64 [5; 6; 7; 8; 9] (lay_of ws) n i Hi)).
  assert (RO : forall q l, reads st ws q l -> ro n (mm st) L5 q l) by (intros q l Hq; apply ro_lpush; [apply le_n|apply ro_of, Hq]).
  destruct (G 0 Hb) as [R0 S0].
  set (E' := env_locals E (c1 b) (c1 (b + 2)) (c1 (b + 3)) (c1 (b + 4))).
  assert (Lloc : forall i, i < 5 -> length (c1 (b + i)) = 64 /\ bytes_ok (c1 (b + i))).
  { intros i Hi. split; [rewrite (heap_len _ _ _ _ _ _ H1) by lia; apply G', Hi|apply (heap_ok _ _ _ _ _ _ H1); lia]. }
  assert (HE' : env_bytes_ok E').
  { apply env_locals_ok; [exact HE|]. intros x [<-|[<-|[<-|[<-|[]]]]]; try (apply Lloc; lia). rewrite <- (Nat.add_0_r b). apply Lloc. lia. }
  assert (Hps : forall i, i < 15 -> exists q, nth_error (pv st 0) i = Some q /\ ro n (mm st) L5 q (nth i tl [])).
  { intros i Hi. destruct (HT i Hi) as (q & A & B). exists q. split; [exact A|]. apply RO, B. }
  assert (TC : tapes_of 0 tl c1 = tl).
  { assert (C0 : c1 0 = nth 15 tl []) by (rewrite Hc1 by exact Hb; reflexivity). unfold tapes_of. rewrite C0. apply list_set_id. lia. }
  apply (runs_computeAux n (mm st) U HU E' P HP3 HE' HC HI L5 tl (pv st 0) b Hb HL5) with (c := c1) (K := pv st 2) (KI := pv st 3) (LI := pv st 4).
  - rewrite S0. reflexivity.
  - exact HR.
  - exact Hps.
  - rewrite R0. exact E15.
  - intros i Hi. destruct (G' i Hi) as [A B]. split; [exact B|]. rewrite A. reflexivity.
  - reflexivity.
  - reflexivity.
  - reflexivity.
  - reflexivity.
  - intros i Hi. rewrite (proj1 (G' i Hi)). assert (i = 0 \/ i = 1 \/ i = 2 \/ i = 3 \/ i = 4) as [->|[->|[->|[->| ->]]]] by lia; rewrite (Nat.add_comm n); reflexivity.
  - intros i Hi. destruct (HK i Hi) as (q & A & B & C). exists q. split; [exact A|]. split; [apply RO, B|exact C].
  - intros i Hi. destruct (HKI i Hi) as (q & A & B & C). exists q. split; [exact A|]. split; [apply RO, B|exact C].
  - intros i Hi. destruct (HLI i Hi) as (q & A & B & C). exists q. split; [exact A|]. split; [apply RO, B|exact C].
  - reflexivity.
  - cbn [iv args nth]. intros Hz. unfold b, ws, aux_writes in *. clear - Hz HIn G. destruct qi as [q|]; [|congruence]. cbn [length]. split; [lia|].
    destruct (HIn q eq_refl) as [A _]. destruct (G 1 ltac:(cbn; lia)) as [B C]. rewrite B, C. split; [exact A|reflexivity].
  - reflexivity.
  - reflexivity.
  - reflexivity.
  - reflexivity.
  - exact H1.
  - intros iv' dv' m' u c' key H' HF Hin0 Hi0. exists c'. cbn [nx mm iv dv pv ct]. split; [exact H'|]. split; [reflexivity|].
    intros m'' p' H'' _. rewrite TC in HF.
    pose proof (computeAuxTape_ok E' P HP3 HE' HC HI tl HR) as X. pose proof (computeAuxTape_ok E P HP3 HE HC HI tl HR) as Y. rewrite X in HF.
    assert (Z : computeAuxTape E P (mkTapes tl 0) = Ok (mkTapes (tapes_of 0 tl c') 0, key)) by (rewrite Y, <- HF; reflexivity).
    cbn [copy_back]. rewrite Hi0. apply (HQ m'' _ _ _ Z).
    + intros i Hi. unfold tapes_of. rewrite nth_list_set by lia. rewrite (proj2 (Nat.eqb_neq i 15)) by lia. reflexivity.
    + unfold tapes_of. rewrite nth_list_set by lia. cbn [Nat.eqb]. exact (heap_pts _ _ _ _ _ _ H'' 0 Hb).
    + intros q Hq. cbn [iv args nth] in Hin0. rewrite <- Hin0 by (rewrite Hq; discriminate). assert (B1 : 1 < length ws) by (unfold ws, aux_writes; rewrite Hq; cbn; lia).
      pose proof (heap_pts _ _ _ _ _ _ H'' 1 B1) as A. unfold ws, aux_writes in A. rewrite Hq in A. exact A.
    + pose proof (heap_chg _ _ _ _ _ _ H'') as A. rewrite regions_of in A. exact A.
Qed.
End S.

Lemma computeAuxTape_code U E P st tl qt qi :
  locals_ok U -> wfP3 P -> env_bytes_ok E -> constants_ok E P -> inverses_ok E P -> aux_call E P st tl qt qi ->
  exists st' t T' key, run U (c_computeAuxTape P 0 1 2 3 4 0 (IV 1)) st = Some (st', t) /\
    computeAuxTape E P (mkTapes tl 0) = Ok (mkTapes T' 0, key) /\ (forall i, i < 15 -> nth i T' [] = nth i tl []) /\
    pts (nx st) (mm st') qt (nth 15 T' []) /\ (forall q, qi = Some q -> pts (nx st) (mm st') q key) /\
    chg (nx st) (mm st) (mm st') (aux_writes P qt qi) /\ iv st' = upd (iv st) 0 0 /\ dv st' = dv st /\ pv st' = pv st /\ nx st' = nx st.
Proof.
  intros HU HP HE HC HI HM.
  pose proof (runs_computeAuxTape U HU E P HP HE HC HI st tl qt qi HM (fun y => exists T' key,
    computeAuxTape E P (mkTapes tl 0) = Ok (mkTapes T' 0, key) /\ (forall i, i < 15 -> nth i T' [] = nth i tl []) /\
    pts (nx st) (mm y) qt (nth 15 T' []) /\ (forall q, qi = Some q -> pts (nx st) (mm y) q key) /\
    chg (nx st) (mm st) (mm y) (aux_writes P qt qi) /\ iv y = upd (iv st) 0 0 /\ dv y = dv st /\ pv y = pv st /\ nx y = nx st)) as H.
  unfold runs in H. destruct (run U _ st) as [[y t]|].
  - destruct H as (T' & key & H1).
    { intros m' u T' key A B C D F. exists T', key. cbn [iv dv pv mm nx]. split; [exact A|]. split; [exact B|]. split; [exact C|]. split; [exact D|]. split; [exact F|]. auto. }
    exists y, t, T', key. split; [reflexivity|]. exact H1.
  - exfalso. apply H. intros m' u T' key A B C D F. exists T', key. cbn [iv dv pv mm nx]. split; [exact A|]. split; [exact B|]. split; [exact C|]. split; [exact D|]. split; [exact F|]. auto.
Qed.

Lemma computeAuxTape_constant_time U U' P x y : locals_ok U -> locals_ok U' -> same_public x y ->
  let c := c_computeAuxTape P 0 1 2 3 4 0 (IV 1) in observed (run U c x) = observed (run U' c y).
Proof. intros HU HU' H c. apply observed_same; auto. Qed.
