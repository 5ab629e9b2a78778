(** A memory in which the functions that hash can be called. *)

From Coq Require Import List NArith Arith Bool Lia.
From Verif Require Import Base Params Env Spec MiniC CodeSpec HashSpec CodeKeccakSpec CodeHashUses CodeHashUsesSpec Picnic1 CodeWitness CodeRules.
Import ListNotations.

(** Every entry of variable [a] from 3 to 10 points to block [a], of 11000 bytes. *)
Definition demo_size : nat := 110 * 100.
Definition demo_memory (x : N) : memory := fun k => match k with 0 => round_constant_bytes | 3 => repeat x demo_size | _ => repeat (N.of_nat k) demo_size end.
Definition demo_state (x : N) (v5 : list ptr) : state :=
  mkState (fun _ => 5) (fun _ => 0%N) (fun a => match a with 0 => [(0, 0)] | 5 => v5 | _ => repeat (a, 0) 1000 end) (demo_memory x) 11 0.
Definition same_block (a : nat) : list ptr := repeat (a, 0) 1000.

Lemma nth_same (a i : nat) : i < 1000 -> nth_error (repeat (a, 0) 1000) i = Some (a, 0).
Proof. intros H. rewrite (nth_error_nth' _ (0, 0)) by (rewrite repeat_length; exact H). f_equal. pose proof (@nth_In ptr i (repeat (a, 0) 1000) (0, 0)) as X. rewrite repeat_length in X. apply repeat_spec in X; [exact X|exact H]. Qed.
Lemma demo_pv v5 x a i : 3 <= a <= 10 -> a <> 5 -> i < 1000 -> nth_error (pv (demo_state x v5) a) i = Some (a, 0).
Proof. intros Ha H5 Hi. do 11 (destruct a as [|a]; [try lia; apply nth_same; exact Hi|]). lia. Qed.
Definition demo_data (x : N) (a : nat) : bytes := if a =? 3 then repeat x demo_size else repeat (N.of_nat a) demo_size.
Lemma demo_pts v5 x a : 3 <= a <= 10 -> pts 11 (mm (demo_state x v5)) (a, 0) (demo_data x a).
Proof. intros Ha. apply pts_block; [lia|]. do 11 (destruct a as [|a]; [try lia; reflexivity|]). lia. Qed.
Lemma demo_length x a : length (demo_data x a) = demo_size.
Proof. unfold demo_data. destruct (a =? 3); apply repeat_length. Qed.
Lemma demo_ok x a : (x < 256)%N -> a <= 10 -> bytes_ok (demo_data x a).
Proof. intros Hx Ha. unfold demo_data. destruct (a =? 3); apply Forall_forall; intros y Hy; apply repeat_spec in Hy; subst y; unfold byte; lia. Qed.
Lemma demo_short x a : short (demo_data x a).
Proof. unfold short. rewrite demo_length. vm_compute. discriminate. Qed.
Lemma demo_constants x v5 : constants (demo_state x v5) (0, 0).
Proof. split; [reflexivity|]. split; [reflexivity|]. apply pts_block; [cbn; lia|reflexivity]. Qed.
Lemma demo_entry x v5 a i : 3 <= a <= 10 -> (a = 5 -> v5 = same_block 5) -> i < 1000 -> nth_error (pv (demo_state x v5) a) i = Some (a, 0).
Proof. intros Ha H5 Hi. destruct (Nat.eq_dec a 5) as [->|N5]; [|apply demo_pv; assumption]. rewrite (H5 eq_refl). apply nth_same. exact Hi. Qed.
Lemma demo_holds x v5 a i n : (x < 256)%N -> 3 <= a <= 10 -> (a = 5 -> v5 = same_block 5) -> i < 1000 -> n <= demo_size -> holds (demo_state x v5) a i n (demo_data x a).
Proof.
  intros Hx Ha H5 Hi Hn. exists (a, 0). split; [apply demo_entry; assumption|]. split; [apply demo_pts; exact Ha|]. split; [apply demo_ok; [exact Hx|lia]|].
  split; [rewrite demo_length; exact Hn|apply demo_short].
Qed.
Lemma demo_off c k x v5 a i n : (x < 256)%N -> 3 <= a <= 10 -> fst c <> a -> (a = 5 -> v5 = same_block 5) -> i < 1000 -> n <= demo_size -> holds_off c k (demo_state x v5) a i n (demo_data x a).
Proof.
  intros Hx Ha Hc H5 Hi Hn. exists (a, 0). split; [apply demo_entry; assumption|]. split; [apply demo_pts; exact Ha|]. split; [apply demo_ok; [exact Hx|lia]|].
  split; [rewrite demo_length; exact Hn|]. split; [apply demo_short|left; exact Hc].
Qed.
Lemma demo_part x v5 a o n : 3 <= a <= 10 -> o + n <= demo_size -> exists d, length d = n /\ pts 11 (mm (demo_state x v5)) (a, o) d.
Proof.
  intros Ha Ho. exists (firstn n (skipn o (demo_data x a))). split; [rewrite firstn_length, skipn_length, demo_length; lia|].
  exact (CodeRules.pts_sub 11 _ (a, 0) _ o n (demo_pts v5 x a Ha) ltac:(rewrite demo_length; lia)).
Qed.
Lemma demo_room x v5 a i n : 3 <= a <= 10 -> (a = 5 -> v5 = same_block 5) -> i < 1000 -> n <= demo_size -> room_at (demo_state x v5) (0, 0) a i (a, 0) n.
Proof. intros Ha H5 Hi Hn. split; [apply demo_entry; assumption|]. split; [apply demo_part; [exact Ha|exact Hn]|left; cbn; lia]. Qed.

Definition demo (v5 : list ptr) := demo_state 77 v5.
Definition st1 : state := demo (same_block 5).
Definition demo_view : view := mkView (demo_data 77 4) (demo_data 77 4) (demo_data 77 4).
Definition demo_triples : list (bytes * bytes * bytes) := repeat (demo_data 77 3, demo_data 77 3, demo_data 77 3) 219.
Ltac small := apply Nat.leb_le; vm_compute; reflexivity.
Ltac demo := first [apply demo_constants | apply demo_room; [lia|intros; reflexivity|small|small] | apply demo_holds; [reflexivity|lia|intros; reflexivity|small|small]
  | apply demo_off; [reflexivity|lia|discriminate|intros; reflexivity|small|small]].
Ltac demos := repeat match goal with |- _ /\ _ => split end; demo.
