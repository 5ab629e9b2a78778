(** Property theorems: the third output shares in verification. *)

From Coq Require Import List NArith Arith Bool Lia.
From Verif Require Import Base Params Spec MiniC CodeSpec CodeZkbSpec CodeVerify CodeVerifySpec.
From Verif Require Import BaseFacts ParamFacts CodeVerifyProofs.
Import ListNotations.

(** C58: in verification with any ZKB++ parameter set but Picnic_L1_full, the loop computing the output share of the
    unopened party of each round makes only valid, aligned accesses, changes nothing but the memory for these
    shares, and leaves there, round after round, the sum of the two opened shares and the public key. *)
Theorem C58_third_share : forall U p P st qs f1 f2 pk,
  get_param_set p = Some P -> is_picnic3 p = false -> p <> Picnic_L1_full -> view3_call P st qs f1 f2 pk ->
  exists st' t, run U (c_view3 P) st = Some (st', t) /\
    (forall i, i < numMPCRounds P -> exists s, pts (nx st) (mm st') (fst qs, snd qs + i * stateSizeBytes P) s /\ length s = stateSizeBytes P /\
       forall b, bit s b = xorb (xorb (bit (f1 i) b) (bit (f2 i) b)) (bit pk b)) /\
    chg (nx st) (mm st) (mm st') [(qs, numMPCRounds P * stateSizeBytes P)] /\ nx st' = nx st.
Proof. exact view3_code. Qed.
Print Assumptions C58_third_share.

(** With Picnic_L1_full (blocks of 17 bytes) the same loop always stores a 32-bit word at a misaligned address. *)
Theorem C58_third_share_L1_full_refuted : forall U P st qs f1 f2 pk,
  get_param_set Picnic_L1_full = Some P -> view3_call P st qs f1 f2 pk -> run U (c_view3 P) st = None.
Proof. exact view3_L1_full. Qed.
Print Assumptions C58_third_share_L1_full_refuted.

(** A call in a memory where every object has a block of its own. *)
Example C58_example : forall p P, get_param_set p = Some P ->
  let f x (i : nat) := repeat x (stateSizeBytes P) in
  view3_call P (view3_start P (f 1%N) (f 2%N) (f 3%N 0)) (0, 0) (f 1%N) (f 2%N) (f 3%N 0).
Proof.
  intros p P _. cbv zeta.
  assert (R : forall x k, (x < 256)%N -> bytes_ok (repeat x k)) by (intros x k Hx; apply Forall_forall; intros y Hy; apply repeat_spec in Hy; subst y; exact Hx).
  apply view3_start_call; [intros i; split|intros i; split| |]; try apply repeat_length; apply R; lia.
Qed.
