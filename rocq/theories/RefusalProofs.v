(** Proofs about runs in which the allocator refuses requests. *)

From Coq Require Import List NArith Arith Bool Lia.
From Verif Require Import Base Params Memory Alloc AllocApi MemSpec MemApi.
Import ListNotations.

Local Open Scope nat_scope.

(** ** Undefined runs *)

Lemma malloc_refused n m : refuses m (next m) = true ->
  malloc n m = Ok (Null, mkMem (live m) (S (next m)) (refuses m)).
Proof. intros H. unfold malloc, new_block. rewrite H. reflexivity. Qed.
Lemma malloc_granted n m : refuses m (next m) = false ->
  malloc n m = Ok (Loc (next m) 0, mkMem (Tok (next m) n true :: slots (next m) n Undef ++ live m) (S (next m)) (refuses m)).
Proof. intros H. unfold malloc, new_block. rewrite H. reflexivity. Qed.
Lemma malloc_some n m : exists p m', malloc n m = Ok (p, m').
Proof. unfold malloc, new_block. destruct (true && refuses m (next m)); eauto. Qed.

Lemma store_null {A} n (k : M A) m : (p <~ malloc n;; store Null p;;; k) m = UB.
Proof. unfold mbind at 1. destruct (malloc_some n m) as (p & m' & ->). reflexivity. Qed.

Lemma signature_null P m : allocateSignature P Null m = UB.
Proof. unfold allocateSignature. apply store_null. Qed.
Lemma signature2_null P m : allocateSignature2 P Null m = UB.
Proof. unfold allocateSignature2. apply store_null. Qed.
Lemma proof_null P k m : allocateProof P (Null +p k) m = UB.
Proof. unfold allocateProof. cbn [plus]. apply store_null. Qed.

Lemma bind_UB {A B} (f : M A) (g : A -> M B) m : f m = UB -> mbind f g m = UB.
Proof. intros H. unfold mbind. rewrite H. reflexivity. Qed.
Lemma bind_Ok {A B} (f : M A) (g : A -> M B) m v m' : f m = Ok (v, m') -> mbind f g m = g v m'.
Proof. intros H. unfold mbind. rewrite H. reflexivity. Qed.

(** The array of proofs of a signature at a live structure is refused. *)
Lemma signature_proofs P b h L m : 1 <= numMPCRounds P -> refuses m (next m) = true ->
  live m = Tok b 24 h :: slots b 24 Undef ++ L -> allocateSignature P (Loc b 0) m = UB.
Proof.
  intros HT Hr HL. unfold allocateSignature. rewrite (bind_Ok _ _ _ _ _ (malloc_refused _ _ Hr)).
  destruct m as [lv nx rf]. cbn [live] in HL. subst lv. cbn [live next refuses slots map seq Nat.div Nat.divmod fst app].
  replace (slots b 24 Undef) with [Cel b 0 Undef; Cel b 8 Undef; Cel b 16 Undef] by reflexivity.
  unfold store at 1. unfold mbind at 1. cbn [live next refuses app existsb is_cel map].
  rewrite !Nat.eqb_refl. cbn [andb orb bind].
  destruct (numMPCRounds P) as [|T]; [lia|]. apply bind_UB. unfold mdo. cbn [mfor]. apply bind_UB.
  unfold mbind at 1. unfold load, mbind at 1, load_cell. cbn [live find is_cel]. rewrite !Nat.eqb_refl. cbn [andb bind].
  apply proof_null.
Qed.

Lemma rounds_pos p P : get_param_set p = Some P -> 1 <= numMPCRounds P.
Proof. intros H. exact (mp_T P (get_memP p P H)). Qed.

Lemma sign_first_refused p P g m : get_param_set p = Some P -> refuses m (next m) = true ->
  picnic_sign_mem p g m = UB.
Proof.
  intros HP Hr. unfold picnic_sign_mem. rewrite HP. destruct (negb (is_picnic3 p));
    rewrite (bind_Ok _ _ _ _ _ (malloc_refused _ _ Hr)); apply bind_UB; [apply signature_null|apply signature2_null].
Qed.
Lemma verify_first_refused p P des v m : get_param_set p = Some P -> refuses m (next m) = true ->
  picnic_verify_mem p des v m = UB.
Proof.
  intros HP Hr. unfold picnic_verify_mem. rewrite HP. destruct (negb (is_picnic3 p));
    rewrite (bind_Ok _ _ _ _ _ (malloc_refused _ _ Hr)); apply bind_UB; [apply signature_null|apply signature2_null].
Qed.
Lemma first_refused_pf p P g des v m : get_param_set p = Some P -> refuses m (next m) = true ->
  picnic_sign_mem p g m = UB /\ picnic_verify_mem p des v m = UB.
Proof. intros HP Hr. split; [eapply sign_first_refused|eapply verify_first_refused]; eassumption. Qed.

Lemma second_refused_pf p P g des v m : get_param_set p = Some P -> is_picnic3 p = false ->
  refuses m (next m) = false -> refuses m (S (next m)) = true ->
  picnic_sign_mem p g m = UB /\ picnic_verify_mem p des v m = UB /\ print_signature_mem p des v m = UB.
Proof.
  intros HP H3 H1 H2. pose proof (rounds_pos p P HP) as HT.
  unfold picnic_sign_mem, picnic_verify_mem, print_signature_mem. rewrite HP, H3. cbn [negb].
  assert (G : forall h, allocateSignature P (Loc (next m) 0)
    (mkMem (Tok (next m) 24 h :: slots (next m) 24 Undef ++ live m) (S (next m)) (refuses m)) = UB).
  { intros h. apply (signature_proofs P (next m) h (live m)); [exact HT|exact H2|reflexivity]. }
  split; [|split].
  - rewrite (bind_Ok _ _ _ _ _ (malloc_granted _ _ H1)). apply bind_UB, G.
  - rewrite (bind_Ok _ _ _ _ _ (malloc_granted _ _ H1)). apply bind_UB, G.
  - erewrite (bind_Ok (local 24)) by reflexivity. apply bind_UB, G.
Qed.

(** ** Results of defined runs, whatever is refused *)

Definition rets {A} (f : M A) (Q : A -> Prop) : Prop := forall m r m', f m = Ok (r, m') -> Q r.

Lemma rets_ret {A} (v : A) (Q : A -> Prop) : Q v -> rets (ret v) Q.
Proof. intros H m r m' E. injection E as <- _. exact H. Qed.
Lemma rets_bind {A B} (f : M A) (g : A -> M B) Q R : rets f Q -> (forall v, Q v -> rets (g v) R) -> rets (mbind f g) R.
Proof.
  intros Hf Hg m r m' E. unfold mbind in E. destruct (f m) as [[v m1]| | |] eqn:Ef; try discriminate E.
  cbn [bind] in E. exact (Hg v (Hf _ _ _ Ef) _ _ _ E).
Qed.
Lemma rets_then {A B} (f : M A) (g : A -> M B) R : (forall v, rets (g v) R) -> rets (mbind f g) R.
Proof. intros Hg. apply (rets_bind f g (fun _ => True)); [intros ? ? ? ?; exact I|auto]. Qed.
Lemma rets_exit (f : nat -> bool) body n : forall i0, (forall i, rets (body i) (fun b => b = f i)) ->
  rets (mfor_exit n i0 body) (fun b => b = forallb f (seq i0 n)).
Proof.
  induction n as [|n IH]; intros i0 H; cbn [mfor_exit seq forallb]; [apply rets_ret; reflexivity|].
  apply (rets_bind _ _ _ _ (H i0)). intros b ->. destruct (f i0); cbn [andb]; [apply IH, H|apply rets_ret; reflexivity].
Qed.
Ltac rthen := repeat lazymatch goal with
  | |- rets (mbind (mfor_exit _ _ _) _) _ => fail
  | |- rets (mbind (verify_picnic3_body _ _ _ _ _ _ _ _) _) _ => fail
  | |- rets (mbind (sign_picnic3_body _ _ _ _ _) _) _ => fail
  | |- rets (mbind _ _) _ => apply rets_then; intros ?
  end.

Section P.
Variable P : paramset.
Let T := numMPCRounds P.

Lemma rets_deserialize v sig : rets (deserializeSignature2_mem P v sig) (fun b => b = parses P v).
Proof.
  unfold deserializeSignature2_mem, parses. destruct (v_short v); cbn [negb andb]; [apply rets_ret; reflexivity|].
  rthen. destruct (v_len v); cbn [negb andb]; [|apply rets_ret; reflexivity]. rthen.
  apply rets_exit. intros t. destruct (v_open v t); cbn [negb andb]; [|apply rets_ret; reflexivity]. rthen. apply rets_ret. reflexivity.
Qed.

Definition rebuilds (v : vflow) : bool :=
  v_rs0 v && forallb (fun t => negb (v_open v t) || v_rs v t) (seq 0 (numMPCRounds P)).

Lemma rets_body v a b c d e f : rets (verify_picnic3_body P v a b c d e f) (fun r => r = rebuilds v && accepts P v).
Proof.
  unfold verify_picnic3_body, rebuilds, accepts. rthen. destruct (v_rs0 v); cbn [negb andb]; [|apply rets_ret; reflexivity].
  apply (rets_bind _ _ (fun b => b = forallb (fun t => negb (v_open v t) || v_rs v t) (seq 0 (numMPCRounds P)))).
  { apply rets_exit. intros t. destruct (v_open v t); cbn [negb orb]; rthen; apply rets_ret; reflexivity. }
  intros go ->. destruct (forallb _ (seq 0 (numMPCRounds P))); cbn [negb andb]; [|apply rets_ret; reflexivity]. rthen.
  apply (rets_bind _ _ (fun b => b = forallb (fun t => negb (v_open v t) || v_sim v t) (seq 0 (numMPCRounds P)))).
  { apply rets_exit. intros t. destruct (v_open v t); cbn [negb orb]; [apply rets_ret; reflexivity|]. rthen. apply rets_ret. reflexivity. }
  intros go ->. rthen. destruct (forallb _ (seq 0 (numMPCRounds P))); cbn [negb andb]; [|apply rets_ret; reflexivity].
  rthen. apply rets_ret. reflexivity.
Qed.

Lemma rets_verify3 v : rets (verify_picnic3_mem P v) (fun r => r = rebuilds v && accepts P v).
Proof.
  unfold verify_picnic3_mem. rthen. eapply rets_bind; [apply rets_body|]. intros r ->. rthen. apply rets_ret. reflexivity.
Qed.
Lemma rets_verify1 c : rets (verify_mem P c) (fun r => r = c).
Proof. unfold verify_mem. rthen. apply rets_ret. reflexivity. Qed.

Lemma rets_sign3_body g sig a b : rets (sign_picnic3_body P g sig a b) (fun r => fst r = forallb (g_sim g) (seq 0 (numMPCRounds P))).
Proof.
  unfold sign_picnic3_body. rthen. eapply rets_bind; [apply rets_exit; intros t; apply rets_ret; reflexivity|].
  intros go Hgo. cbn beta in Hgo. rthen. rewrite <- Hgo. destruct go; cbn [negb]; [|apply rets_ret; reflexivity]. rthen. apply rets_ret. reflexivity.
Qed.
Lemma rets_sign3 g sig : rets (sign_picnic3_mem P g sig) (fun r => r = forallb (g_sim g) (seq 0 (numMPCRounds P))).
Proof.
  unfold sign_picnic3_mem. rthen. eapply rets_bind; [apply rets_sign3_body|]. intros [ok t] H. cbn [fst] in H. rthen. apply rets_ret. exact H.
Qed.
Lemma rets_sign1 g : rets (sign_picnic1_mem P g) (fun r => r = forallb (g_sim g) (seq 0 (numMPCRounds P))).
Proof.
  unfold sign_picnic1_mem. rthen. eapply rets_bind; [apply rets_exit; intros t; apply rets_ret; reflexivity|].
  intros go Hgo. cbn beta in Hgo. rewrite <- Hgo. destruct go; cbn [negb]; rthen; apply rets_ret; reflexivity.
Qed.
End P.

(** After allocateSignature has run, [sig] is not NULL. *)
Lemma rets_alloc {B} n (f : ptr -> M unit) (d : B) (k : ptr -> M B) (R : B -> Prop) : (forall m, f Null m = UB) ->
  (forall sig, rets (k sig) R) -> rets (sig <~ malloc n;; f sig;;; if is_null sig then ret d else k sig) R.
Proof.
  intros Hf Hk m r m' E. unfold mbind at 1 in E. destruct (malloc n m) as [[p m1]| | |]; try discriminate E. cbn [bind] in E.
  destruct p as [|b o].
  - unfold mbind in E. rewrite Hf in E. discriminate E.
  - cbn [is_null] in E. exact (rets_then _ _ R (fun _ => Hk (Loc b o)) _ _ _ E).
Qed.

Lemma sign_unreported_pf p P g m r m' : get_param_set p = Some P -> picnic_sign_mem p g m = Ok (r, m') ->
  r = forallb (g_sim g) (seq 0 (numMPCRounds P)) && g_ser g.
Proof.
  intros HP. unfold picnic_sign_mem. rewrite HP.
  destruct (negb (is_picnic3 p)); revert m r m'.
  - apply (rets_alloc 24 (allocateSignature P) false _ (fun r => r = _)); [apply signature_null|]. intros sig.
    eapply rets_bind; [apply rets_sign1|]. intros b ->. rthen. apply rets_ret. reflexivity.
  - apply (rets_alloc 72 (allocateSignature2 P) false _ (fun r => r = _)); [apply signature2_null|]. intros sig.
    eapply rets_bind; [apply rets_sign3|]. intros b ->. rthen. apply rets_ret. reflexivity.
Qed.

Lemma verify_unreported_pf p P des v m r m' : get_param_set p = Some P -> picnic_verify_mem p des v m = Ok (r, m') ->
  r = if is_picnic3 p
      then parses P v && (v_rs0 v && forallb (fun t => negb (v_open v t) || v_rs v t) (seq 0 (numMPCRounds P)) && accepts P v)
      else des && v_cmp v.
Proof.
  intros HP. unfold picnic_verify_mem. rewrite HP.
  destruct (is_picnic3 p); cbn [negb]; revert m r m'.
  - apply (rets_alloc 72 (allocateSignature2 P) false _ (fun r => r = _)); [apply signature2_null|]. intros sig.
    eapply rets_bind; [apply rets_deserialize|]. intros b ->.
    apply (rets_bind _ _ (fun r => r = parses P v && (rebuilds P v && accepts P v))).
    { destruct (parses P v); [apply rets_verify3|apply rets_ret; reflexivity]. }
    intros b ->. rthen. apply rets_ret. reflexivity.
  - apply (rets_alloc 24 (allocateSignature P) false _ (fun r => r = _)); [apply signature_null|]. intros sig.
    apply (rets_bind _ _ (fun r => r = des && v_cmp v)).
    { destruct des; [apply rets_verify1|apply rets_ret; reflexivity]. }
    intros b ->. rthen. apply rets_ret. reflexivity.
Qed.
