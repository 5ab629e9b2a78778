(** Memories in which a ZKB++ signature can be written as bytes: every object in a block of its own. *)

From Coq Require Import List NArith Arith Bool Lia ZifyBool ZifyNat ZifyN.
From Verif Require Import Base Params Env Spec LowMC Picnic1 MiniC CodeLowMC CodeSpec HashSpec CodeKeccakSpec CodeZkbSpec CodeSign CodeSignSpec CodeSignAll CodeSignAllSpec CodeSerializeSpec Api ApiSpec.
From Verif Require Import BaseFacts ParamFacts MiniCFacts CodeRules CodeHeap CodeWitness CodeZkbRun CodeZkbWitness CodeSignWitness CodeSignAllWitness ZkbChal CodeP3Lin ApiFacts Witness.
Import ListNotations.

(** ** Any signature with buffers of the right sizes *)
Definition part (pr : proof) (e : nat) : bytes :=
  match e with 0 => p_seed1 pr | 1 => p_seed2 pr | 2 => p_inputShare pr | 3 => p_communicatedBits pr | 4 => p_view3Commitment pr | _ => p_view3UnruhG pr end.
Definition sig_sized (P : paramset) (s : signature) : Prop :=
  (length (s_salt s) = saltSizeBytes P /\ bytes_ok (s_salt s)) /\ (length (s_challengeBits s) = numBytes (2 * numMPCRounds P) /\ bytes_ok (s_challengeBits s)) /\
  length (s_proofs s) = numMPCRounds P /\
  Forall (fun pr => forall e, e < proof_bufs P -> length (part pr e) = proof_size P e /\ bytes_ok (part pr e)) (s_proofs s).

Section W.
Variables (P : paramset) (s : signature) (buf : bytes) (len : nat).
Let n := signer_count P.
Let I := inner P.
Let pb := proof_bufs P.
Definition sig_memory : memory := fun b =>
  if b =? I + 1 then s_salt s else if b =? I + 2 then s_challengeBits s
  else if b =? n then buf
  else match nth_error (s_proofs s) ((b - (I + 3)) / pb) with Some pr => part pr ((b - (I + 3)) mod pb) | None => [] end.
Definition sig_start : state :=
  mkState (args 0 [len]) (fun _ => 0%N) (args [] [[(n, 0)]; [(I + 2, 0)]; [(I + 1, 0)]; places (I + 3) (pb * numMPCRounds P)]) sig_memory (S n) 0.

Lemma sig_start_call : wfP1 P -> sig_sized P s -> bytes_ok buf -> len <= length buf -> serialize_call P sig_start (fun i => (i, 0)) (n, 0) buf len s.
Proof.
  intros HP1 ((L1 & B1) & (L2 & B2) & Lp & Fp) Bb Hl. assert (Pb : 5 <= pb <= 6) by (unfold pb, proof_bufs; destruct (is_UR _); lia).
  assert (Ne : n = I + 3 + pb * numMPCRounds P) by reflexivity.
  assert (H : forall b l, b <= n -> sig_memory b = l -> bytes_ok l -> CodeZkbSpec.holds sig_start (b, 0) l) by (intros b l Hb Hm Ok; split; [apply pts_block; [cbn [sig_start nx]; lia|exact Hm]|exact Ok]).
  assert (M : forall k e pr, nth_error (s_proofs s) k = Some pr -> e < pb -> CodeZkbSpec.holds sig_start (proof_at P k e, 0) (part pr e) /\ length (part pr e) = proof_size P e).
  { intros k e pr Hn He. assert (Hk : k < numMPCRounds P) by (rewrite <- Lp; apply nth_error_Some; congruence).
    pose proof (proj1 (Forall_forall _ _) Fp pr (nth_error_In _ _ Hn) e He) as [A B]. split; [|exact A]. unfold proof_at. fold I pb. apply H; [nia| |exact B].
    unfold sig_memory. rewrite (proj2 (Nat.eqb_neq _ (I + 1))), (proj2 (Nat.eqb_neq _ (I + 2))), (proj2 (Nat.eqb_neq _ n)) by nia.
    replace (I + 3 + pb * k + e - (I + 3)) with (e + k * pb) by lia. rewrite Nat.div_add, Nat.mod_add, Nat.div_small, Nat.mod_small by lia. cbn [Nat.add]. rewrite Hn. reflexivity. }
  split.
  - reflexivity.
  - split; [apply H; [lia| |exact Bb]|].
    + unfold sig_memory. rewrite (proj2 (Nat.eqb_neq _ (I + 1))), (proj2 (Nat.eqb_neq _ (I + 2))), Nat.eqb_refl by lia. reflexivity.
    + split; [exact Hl|]. intros i _ Hi. left. cbn [fst]. fold n in Hi. lia.
  - split; [apply H; [fold I; lia| |exact B1]; unfold sig_memory; fold I; rewrite Nat.eqb_refl; reflexivity|].
    split; [apply H; [fold I; lia| |exact B2]; unfold sig_memory; fold I; rewrite (proj2 (Nat.eqb_neq (I + 2) (I + 1))), Nat.eqb_refl by lia; reflexivity|].
    split; [exact L1|]. split; [exact L2|]. intros k Hk. exists (chalv (s_challengeBits s) k).
    destruct (nth_error (s_proofs s) k) as [pr|] eqn:Hn; [|apply nth_error_None in Hn; lia]. exists pr. pose proof (numBytes_spec (2 * numMPCRounds P)) as Hnb.
    split; [apply getChallenge_ok; lia|]. split; [reflexivity|]. unfold proof_stored. cbv zeta.
    split; [apply (M k 0 pr Hn); lia|]. split; [apply (M k 1 pr Hn); lia|]. split; [intros _; apply (M k 2 pr Hn); lia|]. split; [apply (M k 3 pr Hn); lia|]. split; [apply (M k 4 pr Hn); lia|].
    intros Hu. assert (P6 : pb = 6) by (unfold pb, proof_bufs; rewrite Hu; reflexivity). destruct (M k 5 pr Hn ltac:(lia)) as [[A B] C]. cbn [part proof_size] in *.
    split; [split; [apply pts_firstn, A|apply Forall_firstn, B]|]. rewrite firstn_length, C. pose proof (w1_Gw P HP1 Hu). pose proof (w1_Gwo P HP1 Hu). unfold G_bytes. destruct (_ =? 0); lia.
  - reflexivity.
  - reflexivity.
  - reflexivity.
  - intros k e Hk He. cbn [sig_start pv]. unfold args. cbn [nth]. rewrite (nth_places (I + 3)) by (unfold pb in *; nia). unfold proof_at. fold I pb. rewrite !Nat.add_assoc. reflexivity.
Qed.
End W.

(** Every round with the challenge given by the bytes [c]. *)
Definition plain_sig (P : paramset) (c : N) : signature :=
  mkSig (repeat (mkProof (repeat 1%N (seedSizeBytes P)) (repeat 2%N (seedSizeBytes P)) (repeat 3%N (stateSizeBytes P)) (repeat 4%N (andSizeBytes P)) (repeat 5%N (digestSizeBytes P)) (repeat 6%N (UnruhGWithInputBytes P))) (numMPCRounds P))
    (repeat c (numBytes (2 * numMPCRounds P))) (repeat 7%N (saltSizeBytes P)).
Lemma plain_sized P c : (c < 256)%N -> sig_sized P (plain_sig P c).
Proof.
  intros Hc. unfold sig_sized, plain_sig. cbn [s_salt s_challengeBits s_proofs]. rewrite !repeat_length. split; [split; [reflexivity|apply repeat_ok; lia]|]. split; [split; [reflexivity|apply repeat_ok; lia]|]. split; [reflexivity|].
  apply Forall_forall. intros pr Hi. apply repeat_spec in Hi. subst pr. intros e He. destruct e as [|[|[|[|[|e]]]]]; cbn [part proof_size p_seed1 p_seed2 p_inputShare p_communicatedBits p_view3Commitment p_view3UnruhG]; rewrite repeat_length; (split; [reflexivity|apply repeat_ok; lia]).
Qed.

(** ** Signing *)
(** With one more block, for the output. *)
Definition with_output (st : state) (buf : bytes) (len : nat) : state :=
  mkState (upd (iv st) 10 len) (dv st) (upd (pv st) 25 [(nx st, 0)]) (upd (mm st) (nx st) buf) (S (nx st)) (ct st).
Lemma with_output_call P E st q buf len k msg :
  signer_call P E st q (sk_data k) (pk_ciphertext (sk_pk k)) (firstn (4 * stateSizeWords P) (pk_plaintext (sk_pk k))) msg -> bytes_ok buf -> len <= length buf ->
  api_call P E (with_output st buf len) q (nx st, 0) buf len k msg.
Proof.
  intros HS Bb Hl. assert (X : forall p l, CodeZkbSpec.holds st p l -> CodeZkbSpec.holds (with_output st buf len) p l) by (intros p l [A B]; split; [apply pts_new, A|exact B]).
  assert (Y : forall ws p l, reads st ws p l -> reads (with_output st buf len) ws p l) by (intros ws p l (A & B & C); split; [apply pts_new, A|auto]).
  assert (Z : forall a c f ws, a <> 25 -> CodeZkbSpec.constants st a c f ws -> CodeZkbSpec.constants (with_output st buf len) a c f ws).
  { intros a c f ws Ha H i Hi. destruct (H i Hi) as (p & A & B & C). exists p. split; [cbn [with_output pv]; rewrite upd_neq by exact Ha; exact A|]. auto. }
  split.
  - destruct HS. split; try assumption.
    + intros i Hi. destruct (sg_room i Hi) as (l & A & B). exists l. auto.
    + intros j e Hj He. apply X. auto.
    + destruct sg_pt as (p & A & B & C). exists p. auto.
    + apply Z; [discriminate|assumption].
    + apply Z; [discriminate|assumption].
    + apply Z; [discriminate|assumption].
    + destruct sg_rc as (p & A & B & C). exists p. auto.
    + destruct sg_sk as (p & A & B & C). exists p. auto.
    + destruct sg_pub as (p & A & B & C). exists p. auto.
    + destruct sg_msg as (p & A & B & C). exists p. auto.
  - reflexivity.
  - reflexivity.
  - split; [|exact Hl]. split; [|exact Bb]. apply pts_local.
  - intros i Hi. left. destruct (sg_room _ _ _ _ _ _ _ _ HS i Hi) as (l & [[A _] _] & _). cbn [fst]. lia.
Qed.

(** Any key. *)
Definition demo_api (P : paramset) (k : privatekey) (msg buf : bytes) (len : nat) : state :=
  with_output (signer_start toy_env P (sk_data k) (pk_ciphertext (sk_pk k)) (firstn (4 * stateSizeWords P) (pk_plaintext (sk_pk k))) msg) buf len.
Lemma demo_api_call P k msg buf len : get_param_set (sk_params k) = Some P -> sk_wf k -> bytes_ok msg -> short msg -> bytes_ok buf -> len <= length buf ->
  exists qb, api_call P toy_env (demo_api P k msg buf len) (fun i => (i, 0)) qb buf len k msg.
Proof.
  intros HP ([L1 B1] & [L2 B2] & [L3 B3]) Bm Sm Bb Hl. pose proof (get_param_set_wfP _ P HP) as HW. destruct (wfP_block P HW) as [W1 W2]. pose proof (wf_W3 P HW) as W3.
  assert (L1' : length (sk_data k) = 32) by exact L1. assert (L2' : length (pk_plaintext (sk_pk k)) = 32) by exact L2. assert (L3' : length (pk_ciphertext (sk_pk k)) = 32) by exact L3.
  eexists. apply with_output_call; auto. apply signer_start_call; auto; rewrite ?firstn_length, ?L1', ?L2', ?L3'; try lia; try (unfold short; rewrite ?L1', ?L3'; lia).
  - apply (toy_constants_all _ P HP).
  - apply Forall_firstn, B2.
Qed.
