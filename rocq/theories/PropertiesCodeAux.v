(** Property theorems: moving auxiliary bits between tapes and signature. *)

From Coq Require Import List NArith Arith Bool Lia.
From Verif Require Import Base Params Env Spec LowMC Picnic3 MiniC CodeLowMC CodeP3 CodeSpec CodeZkbSpec CodeP3Spec CodeP3Proto.
From Verif Require Import BaseFacts ParamFacts P3Tape P3Aux P3Online P3Mask MiniCFacts CodeRules CodeWitness CodeZkbWitness CodeP3AuxBits Witness.
Import ListNotations.

(** C68: reading the auxiliary bits out of the last tape, on memory with pointers: no access is out of bounds, only the
    output changes; bit [i] of round [j] is bit [i] of the second half of the round's part of the tape, and bits of the
    output beyond stay as they were. *)
Theorem C68_getAuxBits_code : forall U P st tl out q, wfP3 P -> get_call P st tl out q ->
  exists st' t o, run U (c_getAuxBits P (P0 0) 1) st = Some (st', t) /\ getAuxBits P out (mkTapes tl 0) = Ok o /\
    pts (nx st) (mm st') q o /\ length o = length out /\
    (forall j i, j < numRounds P -> i < stateSizeBits P -> bit o (stateSizeBits P * j + i) = bit (nth 15 tl []) (2 * stateSizeBits P * j + stateSizeBits P + i)) /\
    (forall p, stateSizeBits P * numRounds P <= p -> bit o p = bit out p) /\
    chg (nx st) (mm st) (mm st') [(q, length out)] /\ iv st' = iv st /\ dv st' = dv st /\ pv st' = pv st /\ nx st' = nx st.
Proof. exact getAuxBits_code. Qed.
Print Assumptions C68_getAuxBits_code.

(** Putting auxiliary bits into the last tape: the inverse, and the other half of each round's part is kept. *)
Theorem C68_setAuxBits_code : forall U P st tl a qt, wfP3 P -> set_call P st tl a qt ->
  exists st' t T, run U (c_setAuxBits P 0 (P0 1)) st = Some (st', t) /\ setAuxBits P (mkTapes tl 0) a = Ok (mkTapes T 0) /\
    (forall i, i < 15 -> nth i T [] = nth i tl []) /\ pts (nx st) (mm st') qt (nth 15 T []) /\ length (nth 15 T []) = 2 * andSizeBytes P /\
    (forall j i, j < numRounds P -> i < stateSizeBits P ->
       bit (nth 15 T []) (2 * stateSizeBits P * j + stateSizeBits P + i) = bit a (stateSizeBits P * j + i) /\
       bit (nth 15 T []) (2 * stateSizeBits P * j + i) = bit (nth 15 tl []) (2 * stateSizeBits P * j + i)) /\
    chg (nx st) (mm st) (mm st') [(qt, 2 * andSizeBytes P)] /\ iv st' = iv st /\ dv st' = dv st /\ pv st' = pv st /\ nx st' = nx st.
Proof. exact setAuxBits_code. Qed.
Print Assumptions C68_setAuxBits_code.

(** What the signer reads out and the verifier puts in gives the signer's tape, if the verifier's tape agrees with it
    where there are no auxiliary bits. *)
Theorem C68_auxBits_transfer : forall U U2 P st st2 tl tl2 out a q qt st' t, wfP3 P -> get_call P st tl out q -> set_call P st2 tl2 a qt ->
  run U (c_getAuxBits P (P0 0) 1) st = Some (st', t) -> pts (nx st) (mm st') q a -> length a <= length out ->
  (forall j i, j < numRounds P -> i < stateSizeBits P -> bit (nth 15 tl2 []) (2 * stateSizeBits P * j + i) = bit (nth 15 tl []) (2 * stateSizeBits P * j + i)) ->
  exists st2' t2 T, run U2 (c_setAuxBits P 0 (P0 1)) st2 = Some (st2', t2) /\ pts (nx st2) (mm st2') qt T /\ length T = 2 * andSizeBytes P /\
    forall p, p < 2 * stateSizeBits P * numRounds P -> bit T p = bit (nth 15 tl []) p.
Proof. exact auxBits_transfer. Qed.
Print Assumptions C68_auxBits_transfer.

Theorem C68_auxBits_constant_time : forall U U' P x y, locals_ok U -> locals_ok U' -> same_public x y ->
  observed (run U (c_getAuxBits P (P0 0) 1) x) = observed (run U' (c_getAuxBits P (P0 0) 1) y) /\
  observed (run U (c_setAuxBits P 0 (P0 1)) x) = observed (run U' (c_setAuxBits P 0 (P0 1)) y).
Proof. exact auxBits_constant_time. Qed.
Print Assumptions C68_auxBits_constant_time.

(** Memories with sixteen tapes and a buffer; the bits read out in the first are put into the second. *)
Example C68_example : exists P, get_param_set Picnic3_L1 = Some P /\ wfP3 P /\
  let tl x := map (fun i => repeat (x i) (2 * andSizeBytes P)) (seq 0 16) in
  let st x ps (b : bytes) := mkState (fun _ => 0) (fun _ => 0%N) (args [] ps) (fun k => if k <? 16 then nth k (tl x) [] else b) 17 0 in
  let f i := N.of_nat (5 * i) in let out := repeat 255%N 80 in
  get_call P (st f [[(16, 0)]; places 0 16] out) (tl f) out (16, 0) /\
  exists st' t a, run zero_locals (c_getAuxBits P (P0 0) 1) (st f [[(16, 0)]; places 0 16] out) = Some (st', t) /\ pts 17 (mm st') (16, 0) a /\ length a <= length out /\
    set_call P (st f [places 0 16; [(16, 0)]] a) (tl f) a (15, 0).
Proof.
  destruct (get_param_set Picnic3_L1) as [P|] eqn:HP; [|discriminate HP]. exists P. pose proof (get_param_set_wfP3 _ _ HP eq_refl) as H3.
  split; [reflexivity|]. split; [exact H3|]. intros tl st f out.
  assert (R : forall x k, (x < 256)%N -> bytes_ok (repeat x k)) by (intros x k Hx; apply Forall_forall; intros y Hy; apply repeat_spec in Hy; subst y; exact Hx).
  assert (T : forall i, i < 16 -> length (nth i (tl f) []) = 2 * andSizeBytes P /\ bytes_ok (nth i (tl f) [])).
  { intros i Hi. unfold tl. rewrite nth_map_seq by exact Hi. split; [apply repeat_length|apply R; unfold f; lia]. }
  assert (O : stateSizeBits P * numRounds P <= 8 * 80) by (injection HP as <-; cbv; lia).
  assert (D : forall a b k l, a <> b -> outside [((a, 0), k)] (b, 0) l) by (intros a b k l H p l' [Hp|[]]; injection Hp as <- <-; apply blocks_disj; exact H).
  assert (G : get_call P (st f [[(16, 0)]; places 0 16] out) (tl f) out (16, 0)).
  { split.
    - split; [reflexivity|exact T].
    - split; [reflexivity|]. split; [split; [apply pts_block; [cbn; lia|reflexivity]|apply R; lia]|]. unfold out. rewrite repeat_length. exact O.
    - exists (15, 0). split; [reflexivity|]. split; [apply pts_block; [cbn; lia|reflexivity]|]. split; [apply T; lia|]. apply D. lia. }
  split; [exact G|]. destruct (getAuxBits_code zero_locals P _ _ _ _ H3 G) as (st' & t & o & A1 & A2 & A3 & A4 & _).
  pose proof (getAuxBits_ok P H3 out (tl f) 0 (conj eq_refl T)) as B. rewrite A2 in B. cbn [ok] in B.
  assert (L80 : length out = 80) by apply repeat_length.
  exists st', t, o. split; [exact A1|]. split; [exact A3|]. split; [lia|]. split.
  - split; [reflexivity|exact T].
  - split; [reflexivity|]. split; [apply pts_block; [cbn; lia|reflexivity]|apply T; lia].
  - exists (16, 0). split; [reflexivity|]. split; [|rewrite A4, L80; exact O]. split; [apply pts_block; [cbn; lia|reflexivity]|].
    split; [apply B; [rewrite L80; exact O|apply R; lia]|]. apply D. lia.
Qed.
