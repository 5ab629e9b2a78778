(** Memories in which the programs of MiniC can be called. *)

From Coq Require Import List NArith Arith Bool Lia ZifyBool ZifyNat ZifyN.
From Verif Require Import Base Params Env Spec LowMC MiniC CodeLowMC CodeSpec BaseFacts ParamFacts LowMCFacts MiniCFacts CodeRules CodeLowMCProofs Witness.
Import ListNotations.

Definition zero_locals (_ j : nat) : bytes := zeros j.
Lemma zero_locals_ok : locals_ok zero_locals.
Proof. intros k j. split; [apply length_zeros|apply bytes_ok_zeros]. Qed.

(** Every object in a block of its own. *)
Definition lowmc_memory (E : env) (P : paramset) (pt key : bytes) : memory := fun b =>
  let R := numRounds P in
  match b with
  | 0 => pt | 1 => zeros (4 * stateSizeWords P) | 2 => key
  | S (S (S i)) => if i <? R + 1 then KMatrix E P i else if i <? R + 1 + R then LMatrix E P (i - (R + 1)) else
                   if i <? R + 1 + R + R then RConstant E P (i - (R + 1 + R)) else []
  end.
Definition places (from cnt : nat) : list ptr := map (fun i => (i, 0)) (seq from cnt).
Definition lowmc_start (E : env) (P : paramset) (pt key : bytes) : state :=
  let R := numRounds P in
  mkState (fun _ => 0) (fun _ => 0%N)
    (args [] [[(0, 0)]; [(1, 0)]; [(2, 0)]; places 3 (R + 1); places (3 + (R + 1)) R; places (3 + (R + 1 + R)) R])
    (lowmc_memory E P pt key) (3 + (R + 1 + R + R)) 0.

Lemma nth_places from cnt i : i < cnt -> nth_error (places from cnt) i = Some (from + i, 0).
Proof.
  intros H. unfold places. rewrite nth_error_map.
  assert (E : nth_error (seq from cnt) i = Some (nth i (seq from cnt) 0)) by (apply nth_error_nth'; rewrite seq_length; exact H).
  rewrite E, seq_nth by exact H. reflexivity.
Qed.
Lemma pts_block n m b l : b < n -> m b = l -> pts n m (b, 0) l.
Proof. intros H <-. split; [exact H|]. intros i x Hx. exact Hx. Qed.

Lemma lowmc_call E P pt key : bytes_ok pt -> length pt = 4 * stateSizeWords P -> bytes_ok key -> length key = 4 * stateSizeWords P ->
  LowMC_call E P (lowmc_start E P pt key) (1, 0) pt key.
Proof.
  intros Bp Lp Bk Lk. split; auto.
  - exists (0, 0), (2, 0), (zeros (4 * stateSizeWords P)). repeat (split; [reflexivity|]). unfold lowmc_start; csimpl.
    split; [apply pts_block; [lia|reflexivity]|]. split; [apply pts_block; [lia|reflexivity]|]. split; [apply length_zeros|].
    split; [apply pts_block; [lia|reflexivity]|]. repeat (split; [reflexivity|]). split; [right; left; cbn; lia|left; cbn; lia].
  - intros i Hi. exists (3 + i, 0). unfold lowmc_start. csimpl. split; [apply nth_places, Hi|].
    split; [apply pts_block; [lia|]|split; [reflexivity|left; cbn; lia]].
    cbn [Nat.add lowmc_memory]. rewrite (proj2 (Nat.ltb_lt i _)) by lia. reflexivity.
  - intros i Hi. exists (3 + (numRounds P + 1) + i, 0). unfold lowmc_start. csimpl. split; [apply nth_places, Hi|].
    split; [apply pts_block; [lia|]|split; [reflexivity|left; cbn; lia]].
    cbn [Nat.add lowmc_memory]. rewrite (proj2 (Nat.ltb_ge (numRounds P + 1 + i) (numRounds P + 1))) by lia.
    rewrite (proj2 (Nat.ltb_lt (numRounds P + 1 + i) (numRounds P + 1 + numRounds P))) by lia. f_equal. lia.
  - intros i Hi. exists (3 + (numRounds P + 1 + numRounds P) + i, 0). unfold lowmc_start. csimpl. split; [apply nth_places, Hi|].
    split; [apply pts_block; [lia|]|split; [reflexivity|left; cbn; lia]].
    cbn [Nat.add lowmc_memory]. set (R := numRounds P) in *. rewrite (proj2 (Nat.ltb_ge (R + 1 + R + i) (R + 1))) by lia.
    rewrite (proj2 (Nat.ltb_ge (R + 1 + R + i) (R + 1 + R))) by lia.
    rewrite (proj2 (Nat.ltb_lt (R + 1 + R + i) (R + 1 + R + R))) by lia. f_equal. lia.
Qed.

Lemma lowmc_same_public E P pt key pt' key' : length pt = length pt' -> length key = length key' ->
  same_public (lowmc_start E P pt key) (lowmc_start E P pt' key').
Proof.
  intros H1 H2. unfold same_public, lowmc_start. csimpl. repeat (split; [reflexivity|]).
  intros [|[|[|k]]]; cbn [lowmc_memory]; auto.
Qed.
