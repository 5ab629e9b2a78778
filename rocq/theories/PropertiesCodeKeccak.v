(** Property theorems: Keccak and the hash functions on memory. *)

From Coq Require Import List NArith Arith Bool Lia.
From Verif Require Import Base Params Env Spec MiniC CodeLowMC CodeKeccak CodeSpec Keccak KeccakSpec HashSpec CodeKeccakSpec.
From Verif Require Import CodeWitness CodeHashProofs.
Import ListNotations.

(** C70: the permutation, on memory with pointers, for every content of the state and of uninitialised local arrays: it
    runs without undefined behaviour, replaces the state by Keccak-f[1600] of it, and changes nothing else. *)
Theorem C70_Permute_code : forall U st q qr s, locals_ok U -> pv st 0 = [q] -> pv st 1 = [qr] -> pts (nx st) (mm st) q s -> length s = 200 -> bytes_ok s ->
  snd q mod 8 = 0 -> pts (nx st) (mm st) qr round_constant_bytes -> snd qr mod 8 = 0 -> disj q 200 qr 192 ->
  exists st' t s', run U (c_Permute (P0 0) 1) st = Some (st', t) /\ pts (nx st) (mm st') q s' /\ length s' = 200 /\ bytes_ok s' /\
    bytes_bits s' = keccak_f (bytes_bits s) /\ chg (nx st) (mm st) (mm st') [(q, 200)] /\
    iv st' = iv st /\ dv st' = dv st /\ pv st' = pv st /\ nx st' = nx st.
Proof. exact Permute_code. Qed.
Print Assumptions C70_Permute_code.

(** The hash functions on memory: initialisation with a prefix, any list of inputs, finalisation, any list of outputs.
    The outputs are consecutive pieces of SHAKE128 or SHAKE256 of the prefix and the inputs; only the context and the
    outputs change; no call reports an error. *)
Theorem C70_hash_code : forall U, locals_ok U -> forall P prefix st q qr ins outs,
  match prefix with Some b => byte b | None => True end -> hash_call st q qr ins outs ->
  let lens := map (fun x => length (snd x)) in
  exists st' t, run U (c_hash (use_shake128 P) prefix (lens ins) (lens outs)) st = Some (st', t) /\
    Forall2 (fun x d => length d = length (snd x) /\ pts (nx st) (mm st') (fst x) d) outs
      (pieces (shake (use_shake128 P) (prefix_bytes prefix ++ concat (map snd ins)) (list_sum (lens outs))) (lens outs)) /\
    chg (nx st) (mm st) (mm st') ((q, 200) :: map (fun x => (fst x, length (snd x))) outs) /\
    iv st' 11 = iv st 11 /\ dv st' = dv st /\ (forall a, pv st' a = pv st a) /\ nx st' = nx st.
Proof. exact hash_code. Qed.
Print Assumptions C70_hash_code.

(** C71: what is observed of a run (addresses, branches, loop bounds) does not depend on the data: not on the content of the
    state, the inputs, the outputs or uninitialised arrays. *)
Theorem C71_hash_constant_time : forall U U' b prefix ins outs x y, locals_ok U -> locals_ok U' -> same_public x y ->
  observed (run U (c_hash b prefix ins outs) x) = observed (run U' (c_hash b prefix ins outs) y).
Proof. exact hash_constant_time. Qed.
Print Assumptions C71_hash_constant_time.

(** A context of nonzero content and two inputs, one of which lies in the room for the first output. *)
Definition hash_memory (x : N) : memory := fun k => nth k [repeat 7%N 200; round_constant_bytes; [x; 2; 3]%N; repeat 9%N 300; repeat 0%N 40] [].
Definition hash_state (x : N) : state :=
  mkState (fun _ => 5) (fun _ => 0%N) (args [] [[(0, 0)]; [(1, 0)]; [(2, 0); (3, 200)]; [(3, 0); (4, 0)]]) (hash_memory x) 5 0.
Example C70_example :
  hash_call (hash_state 1) (0, 0) (1, 0) [((2, 0), [1; 2; 3]%N); ((3, 200), repeat 9%N 100)] [((3, 0), repeat 9%N 300); ((4, 0), repeat 0%N 40)] /\
  (exists qr s, pv (hash_state 1) 1 = [qr] /\ pts 5 (hash_memory 1) (0, 0) s /\ length s = 200 /\ bytes_ok s /\ pts 5 (hash_memory 1) qr round_constant_bytes) /\
  same_public (hash_state 1) (hash_state 200).
Proof.
  assert (D : forall a b o o' k l, a <> b -> disj (a, o) k (b, o') l) by (intros; left; assumption).
  assert (B : forall x k, (x < 256)%N -> bytes_ok (repeat x k)) by (intros x k Hx; apply Forall_forall; intros y Hy; apply repeat_spec in Hy; subst y; exact Hx).
  split; [|split].
  - split.
    + split; [reflexivity|]. split; [reflexivity|]. exists (repeat 7%N 200). split; [reflexivity|]. apply pts_block; [cbn; lia|reflexivity].
    + split; [reflexivity|]. split; [reflexivity|]. split; [apply pts_block; [cbn; lia|reflexivity]|apply D; lia].
    + split; [reflexivity|]. constructor; [|constructor; [|constructor]]; cbn [fst snd].
      * split; [apply pts_block; [cbn; lia|reflexivity]|]. split; [repeat constructor|]. split; [unfold short; cbn; lia|apply D; lia].
      * split; [|split; [apply B; lia|split; [unfold short; cbn; lia|apply D; lia]]].
        split; [cbn; lia|]. intros i y Hy. assert (L : i < 100) by (rewrite <- (repeat_length 9%N 100); apply nth_error_Some; congruence).
        apply nth_error_In, repeat_spec in Hy. subst y. 
        assert (E : nth_error (repeat 9%N 300) (200 + i) = Some 9%N).
        { rewrite (nth_error_nth' _ 9%N) by (rewrite repeat_length; lia). rewrite nth_repeat. reflexivity. }
        exact E.
    + split; [reflexivity|]. constructor; [|constructor; [|constructor]]; cbn [fst snd].
      * split; [apply pts_block; [cbn; lia|reflexivity]|]. split; [unfold short; cbn; lia|]. split; apply D; lia.
      * split; [apply pts_block; [cbn; lia|reflexivity]|]. split; [unfold short; cbn; lia|]. split; apply D; lia.
    + constructor; [|constructor; [constructor|constructor]]. constructor; [apply D; lia|constructor].
  - exists (1, 0), (repeat 7%N 200). split; [reflexivity|]. split; [apply pts_block; [cbn; lia|reflexivity]|]. split; [reflexivity|]. split; [apply B; lia|]. apply pts_block; [cbn; lia|reflexivity].
  - repeat (split; [reflexivity|]). intros k. do 5 (destruct k as [|k]; [reflexivity|]). reflexivity.
Qed.
