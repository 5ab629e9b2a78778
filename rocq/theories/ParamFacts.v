(** Facts about the parameter table. *)

From Coq Require Import List NArith Arith Bool Lia ZifyBool ZifyNat ZifyN.
From Verif Require Import Base Params Env Spec BaseFacts.
Import ListNotations.

(** What the LowMC code relies on. *)
Record wfP (P : paramset) : Prop := {
  wf_n : 0 < stateSizeBits P;
  wf_sB : stateSizeBytes P = numBytes (stateSizeBits P);
  wf_W1 : 32 * (stateSizeWords P - 1) < stateSizeBits P;
  wf_W2 : stateSizeBits P <= 32 * stateSizeWords P;
  wf_W3 : 4 * stateSizeWords P <= 32;
  wf_W0 : 0 < stateSizeWords P;
  wf_r : 0 < numRounds P;
  wf_m : 3 * numSboxes P <= stateSizeBits P;
  wf_m0 : 0 < numSboxes P;
  wf_aB : andSizeBytes P = numBytes (3 * numSboxes P * numRounds P)
}.

Lemma param_table_none p : (p = 0 \/ 13 <= p)%N -> param_table p = None.
Proof.
  intros H. unfold param_table.
  destruct p as [|p]; auto.
  do 4 (destruct p as [p|p|]; auto; try lia).
Qed.

Lemma get_param_set_none p : (p = 0 \/ 13 <= p)%N -> get_param_set p = None.
Proof. intros H. unfold get_param_set. rewrite param_table_none; auto. Qed.

Definition all_params : list N := [1;2;3;4;5;6;7;8;9;10;11;12]%N.

Lemma get_param_set_cases p P : get_param_set p = Some P -> In p all_params.
Proof.
  intros H. destruct (N.lt_ge_cases p 13) as [Hp|Hp].
  - assert (p = 0 \/ p = 1 \/ p = 2 \/ p = 3 \/ p = 4 \/ p = 5 \/ p = 6 \/ p = 7 \/ p = 8 \/
            p = 9 \/ p = 10 \/ p = 11 \/ p = 12)%N as Hc by lia.
    destruct Hc as [->|Hc]; [discriminate|]. simpl. intuition.
  - rewrite get_param_set_none in H by auto. discriminate.
Qed.

(** Lift a boolean check over the twelve sets. *)
Lemma params_forall (chk : N -> paramset -> bool) :
  forallb (fun p => match get_param_set p with Some P => chk p P | None => true end) all_params
  = true ->
  forall p P, get_param_set p = Some P -> chk p P = true.
Proof.
  intros H p P HP. rewrite forallb_forall in H.
  specialize (H p (get_param_set_cases p P HP)). simpl in H. rewrite HP in H. auto.
Qed.

Definition wfP_b (P : paramset) : bool :=
  (0 <? stateSizeBits P) && (stateSizeBytes P =? numBytes (stateSizeBits P))
  && (32 * (stateSizeWords P - 1) <? stateSizeBits P)
  && (stateSizeBits P <=? 32 * stateSizeWords P)
  && (4 * stateSizeWords P <=? 32) && (0 <? stateSizeWords P) && (0 <? numRounds P)
  && (3 * numSboxes P <=? stateSizeBits P) && (0 <? numSboxes P)
  && (andSizeBytes P =? numBytes (3 * numSboxes P * numRounds P)).

Lemma wfP_of_b P : wfP_b P = true -> wfP P.
Proof. unfold wfP_b. intros H. constructor; lia. Qed.

Lemma get_param_set_wfP p P : get_param_set p = Some P -> wfP P.
Proof.
  intros H. apply wfP_of_b. revert p P H.
  apply (params_forall (fun _ P => wfP_b P)). vm_compute. reflexivity.
Qed.

(** What the ZKB++ code relies on. *)
Record wfP1 (P : paramset) : Prop := {
  w1_wfP : wfP P;
  w1_tape : digestSizeBytes P <= andSizeBytes P;
  w1_N : numMPCParties P = 3;
  w1_T : 0 < numMPCRounds P;
  w1_Gwo : is_UR (transf P) = true -> UnruhGWithoutInputBytes P = seedSizeBytes P + andSizeBytes P;
  w1_Gw : is_UR (transf P) = true ->
          UnruhGWithInputBytes P = seedSizeBytes P + andSizeBytes P + stateSizeBytes P;
  w1_tmp : 24 * stateSizeWords P <= Nat.max (9 * stateSizeBytes P) (stateSizeBytes P + andSizeBytes P);
  w1_tmpv : 16 * stateSizeWords P <= Nat.max (6 * stateSizeBytes P) (stateSizeBytes P + andSizeBytes P);
  w1_tr : transf P = TRANSFORM_FS \/ transf P = TRANSFORM_UR
}.

Definition is_inv (t : transform) : bool :=
  match t with TRANSFORM_INVALID => true | _ => false end.

Definition wfP1_b (P : paramset) : bool :=
  (digestSizeBytes P <=? andSizeBytes P) && (numMPCParties P =? 3) && (0 <? numMPCRounds P)
  && (negb (is_UR (transf P)) ||
      ((UnruhGWithoutInputBytes P =? seedSizeBytes P + andSizeBytes P) &&
       (UnruhGWithInputBytes P =? seedSizeBytes P + andSizeBytes P + stateSizeBytes P)))
  && (24 * stateSizeWords P <=?
      Nat.max (9 * stateSizeBytes P) (stateSizeBytes P + andSizeBytes P))
  && (16 * stateSizeWords P <=?
      Nat.max (6 * stateSizeBytes P) (stateSizeBytes P + andSizeBytes P))
  && negb (is_inv (transf P)).

Lemma get_param_set_wfP1 p P : get_param_set p = Some P -> is_picnic3 p = false -> wfP1 P.
Proof.
  intros H Hp. pose proof (get_param_set_wfP p P H) as Hw.
  assert (Hb : (is_picnic3 p || wfP1_b P) = true).
  { revert p P H Hp Hw.
    enough (forall p P, get_param_set p = Some P -> (is_picnic3 p || wfP1_b P) = true) by eauto.
    apply (params_forall (fun p P => is_picnic3 p || wfP1_b P)). vm_compute. reflexivity. }
  rewrite Hp in Hb. simpl in Hb. unfold wfP1_b in Hb.
  assert (Ht : transf P = TRANSFORM_FS \/ transf P = TRANSFORM_UR)
    by (destruct (transf P); simpl in Hb; auto; lia).
  constructor; auto; try lia; intros Hu; rewrite Hu in Hb; simpl in Hb; lia.
Qed.
