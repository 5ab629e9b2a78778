(** Concrete trees for the examples. *)

From Coq Require Import List NArith Arith Bool Lia.
From Verif Require Import Base Params Env Spec Tree SigSpec TreeSpec Witness ZkbWitness.
Import ListNotations.

Definition get {A} (d : A) (r : res A) : A := match r with Ok x => x | _ => d end.
Definition get_o {A} (d : A) (r : res (option A)) : A := match r with Ok (Some x) => x | _ => d end.
Definition is_some {A} (r : res (option A)) : bool := match r with Ok (Some _) => true | _ => false end.
Definition no_tree : tree := mkTree 0 [] 0 [] [] 0 0.

(** Leaves with distinct contents. *)
Definition ex_leaves (n : nat) : list bytes := map (fun i => repeat (N.of_nat (i + 1)) 32) (seq 0 n).
Definition ex_salt : bytes := repeat 9%N 32.

(** ** A leaf listed as missing but supplied nevertheless is not bound *)
Section Unbound.
Variable P : paramset.
Hypothesis HP : get_param_set Picnic3_L1 = Some P.

Definition ub_t0 : tree := get no_tree (createTree 4 32).
Definition ub_T : tree := get no_tree (buildMerkleTree toy_env P ub_t0 (map (@Some bytes) (ex_leaves 4)) ex_salt).
Definition ub_out : bytes := get [] (openMerkleTree ub_T [0; 1]).
Definition ub_t1 : tree := get_o no_tree (addMerkleNodes ub_t0 [0; 1] ub_out).
Definition ub_LD : list (option bytes) := Some (repeat 78%N 32) :: tl (map (@Some bytes) (ex_leaves 4)).
Definition ub_t' : tree := get_o no_tree (verifyMerkleTree toy_env P ub_t1 ub_LD ex_salt).

Definition no_collision_at (p : nat) : bool :=
  let x := merkle_string P ub_t' ex_salt p in
  let y := merkle_string P ub_T ex_salt p in
  eqb_bytes x y || negb (eqb_bytes (hash toy_env P (Some 3%N) [x] (digestSizeBytes P))
                                   (hash toy_env P (Some 3%N) [y] (digestSizeBytes P))).
End Unbound.

Lemma eqb_bytes_refl a : eqb_bytes a a = true.
Proof. induction a; simpl; auto. rewrite N.eqb_refl. auto. Qed.

Lemma eqb_bytes_true a b : eqb_bytes a b = true -> a = b.
Proof.
  revert b. induction a as [|x a IH]; intros [|y b]; simpl; try discriminate; auto.
  intros H. apply andb_true_iff in H. destruct H as [H1 H2]. apply N.eqb_eq in H1. f_equal; auto.
Qed.

Definition unbound_b (P : paramset) : bool :=
  (digestSizeBytes P =? 32) &&
  match createTree 4 32 with
  | Ok t0 =>
      match buildMerkleTree toy_env P t0 (map (@Some bytes) (ex_leaves 4)) ex_salt with
      | Ok T =>
          match openMerkleTree T [0; 1] with
          | Ok out =>
              match addMerkleNodes t0 [0; 1] out with
              | Ok (Some t1) =>
                  match verifyMerkleTree toy_env P t1 ub_LD ex_salt with
                  | Ok (Some t') => eqb_bytes (root_value t') (root_value T)
                      && (t_numNodes t' =? 7) && (t_numNodes T =? 7) && (length (t_nodes t') =? 7) && (length (t_nodes T) =? 7)
                  | _ => false
                  end
              | _ => false
              end
          | _ => false
          end
      | _ => false
      end
  | _ => false
  end && forallb (no_collision_at P) (seq 0 7).

Lemma missing_leaf_unbound : exists P t0 T out t1 t',
  get_param_set Picnic3_L1 = Some P /\
  createTree 4 (digestSizeBytes P) = Ok t0 /\
  buildMerkleTree toy_env P t0 (map (@Some bytes) (ex_leaves 4)) ex_salt = Ok T /\
  openMerkleTree T [0; 1] = Ok out /\
  addMerkleNodes t0 [0; 1] out = Ok (Some t1) /\
  verifyMerkleTree toy_env P t1 ub_LD ex_salt = Ok (Some t') /\
  root_value t' = root_value T /\
  (exists d, nth 0 ub_LD None = Some d /\ d <> nth 0 (ex_leaves 4) []) /\
  forall p, ~ collide toy_env P (Some 3%N) (merkle_string P t' ex_salt p) (merkle_string P T ex_salt p).
Proof.
  destruct (get_param_set Picnic3_L1) as [P|] eqn:HP; [|discriminate HP].
  assert (H : unbound_b P = true) by (injection HP as <-; vm_compute; reflexivity).
  clear HP. exists P. unfold unbound_b in H.
  apply andb_true_iff in H. destruct H as [H Hc]. apply andb_true_iff in H. destruct H as [Hd H].
  apply Nat.eqb_eq in Hd. rewrite Hd.
  unfold no_collision_at, ub_t', ub_t1, ub_out, ub_T, ub_t0 in Hc.
  destruct (createTree 4 32) as [t0| | |] eqn:E0; try discriminate. cbn [get] in Hc.
  destruct (buildMerkleTree toy_env P t0 (map (@Some bytes) (ex_leaves 4)) ex_salt) as [T| | |] eqn:E1; try discriminate. cbn [get] in Hc.
  destruct (openMerkleTree T [0; 1]) as [out| | |] eqn:E2; try discriminate. cbn [get] in Hc.
  destruct (addMerkleNodes t0 [0; 1] out) as [[t1|]| | |] eqn:E3; try discriminate. cbn [get_o] in Hc.
  destruct (verifyMerkleTree toy_env P t1 ub_LD ex_salt) as [[t'|]| | |] eqn:E4; try discriminate. cbn [get_o] in Hc.
  repeat (apply andb_true_iff in H; destruct H as [H ?]).
  repeat match goal with HH : (_ =? _) = true |- _ => apply Nat.eqb_eq in HH end.
  exists t0, T, out, t1, t'. repeat (split; [solve [auto]|]). split; [apply eqb_bytes_true; auto|]. split.
  - exists (repeat 78%N 32). split; [reflexivity|]. vm_compute. discriminate.
  - intros p [Hne Hh]. destruct (Nat.lt_ge_cases p 7) as [Hp|Hp].
    + rewrite forallb_forall in Hc. specialize (Hc p). rewrite Hh, eqb_bytes_refl in Hc. cbn [negb] in Hc.
        rewrite orb_false_r in Hc. apply Hne. apply eqb_bytes_true. apply Hc. apply in_seq. lia.
    + apply Hne. unfold merkle_string, node_value. rewrite !nth_overflow by lia.
        replace (2 * p + 2 <? t_numNodes t') with false by (symmetry; apply Nat.ltb_ge; lia).
        replace (2 * p + 2 <? t_numNodes T) with false by (symmetry; apply Nat.ltb_ge; lia). reflexivity.
Qed.

(** ** A forged opening under a constant hash function *)
Definition forged_b (P : paramset) : bool :=
  (digestSizeBytes P =? 32) && (saltSizeBytes P =? 32) &&
  match createTree 5 32 with
  | Ok t0 =>
      match buildMerkleTree (const_env 85) P t0 (map (@Some bytes) (ex_leaves 5)) ex_salt with
      | Ok T =>
          match addMerkleNodes t0 [1; 4] (repeat 3%N 64) with
          | Ok (Some t1) =>
              match verifyMerkleTree (const_env 85) P t1 (present_leaves 5 [1; 4] (repeat ex_salt 5)) ex_salt with
              | Ok (Some t') => eqb_bytes (root_value t') (root_value T)
              | _ => false
              end
          | _ => false
          end
      | _ => false
      end
  | _ => false
  end.

Lemma forged : exists P t0 T t1 t' d,
  get_param_set Picnic3_L1 = Some P /\
  (saltSizeBytes P <= length ex_salt) /\
  createTree 5 (digestSizeBytes P) = Ok t0 /\
  buildMerkleTree (const_env 85) P t0 (map (@Some bytes) (ex_leaves 5)) ex_salt = Ok T /\
  addMerkleNodes t0 [1; 4] (repeat 3%N 64) = Ok (Some t1) /\
  verifyMerkleTree (const_env 85) P t1 (present_leaves 5 [1; 4] (repeat ex_salt 5)) ex_salt = Ok (Some t') /\
  root_value t' = root_value T /\
  nth 3 (present_leaves 5 [1; 4] (repeat ex_salt 5)) None = Some d /\
  firstn (digestSizeBytes P) d <> firstn (digestSizeBytes P) (nth 3 (ex_leaves 5) []).
Proof.
  destruct (get_param_set Picnic3_L1) as [P|] eqn:HP; [|discriminate HP].
  assert (H : forged_b P = true) by (injection HP as <-; vm_compute; reflexivity).
  clear HP. exists P. unfold forged_b in H.
  apply andb_true_iff in H. destruct H as [H Hc]. apply andb_true_iff in H. destruct H as [Hd H].
  apply Nat.eqb_eq in Hd, H. rewrite Hd, H.
  destruct (createTree 5 32) as [t0| | |] eqn:E0; try discriminate.
  destruct (buildMerkleTree (const_env 85) P t0 (map (@Some bytes) (ex_leaves 5)) ex_salt) as [T| | |] eqn:E1; try discriminate.
  destruct (addMerkleNodes t0 [1; 4] (repeat 3%N 64)) as [[t1|]| | |] eqn:E3; try discriminate.
  destruct (verifyMerkleTree (const_env 85) P t1 (present_leaves 5 [1; 4] (repeat ex_salt 5)) ex_salt) as [[t'|]| | |] eqn:E4; try discriminate.
  exists t0, T, t1, t', ex_salt. repeat (split; [solve [auto]|]). split; [apply eqb_bytes_true; auto|].
  split; [reflexivity|]. vm_compute. discriminate.
Qed.
