(** Property theorem: a round of ZKB++ verification with pointers. *)

From Coq Require Import List NArith Arith Bool Lia.
From Verif Require Import Base Params Env Spec LowMC Picnic1 MiniC CodeLowMC CodeSpec HashSpec CodeZkbSpec CodeVerRound CodeVerRoundSpec ApiSpec.
From Verif Require Import BaseFacts ParamFacts CodeWitness CodeVerRoundThm CodeVerRoundWitness Witness.
Import ListNotations.

(** C77: a round of ZKB++ verification (random tapes and input shares of the two opened views, computation, commitments,
    G and the third output share) on memory with pointers and SHAKE itself: for any received proof and every challenge
    it runs to the end without an access out of bounds or misaligned; only scratch memory, tapes, views, commitments,
    values of G and the third output share change; and it leaves there what the verification model computes. *)
Theorem C77_verify_round_code : forall U E p P st q ch pr chal salt pub pt i,
  locals_ok U -> get_param_set p = Some P -> is_picnic3 p = false -> env_bytes_ok E -> constants_ok E P ->
  round_call P E st q ch pr salt pub pt -> getChallenge chal i = Ok ch ->
  exists st' t vo cm gs, run U (c_verify_round P i) st = Some (st', t) /\
    chg (nx st) (mm st) (mm st') (round_writes P q) /\
    (forall x, x <> 0 -> x <> 2 -> iv st' x = iv st x) /\ dv st' = dv st /\ pv st' = pv st /\ nx st' = nx st /\
    verify_round (with_shake E) P i pr chal salt pub pt = Ok (vo, cm, gs) /\ round_leaves P st' q ch vo cm gs.
Proof. exact verify_round_code. Qed.
Print Assumptions C77_verify_round_code.

(** Every ZKB++ parameter set and challenge, with a proof made of arbitrary equal bytes. *)
Example C77_example : forall p P ch x, get_param_set p = Some P -> is_picnic3 p = false -> ch < 3 -> (x < 200)%N ->
  locals_ok zero_locals /\ env_bytes_ok toy_env /\ constants_ok toy_env P /\
  round_call P toy_env (demo_round P ch x) (fun i => (i, 0)) ch (demo_proof P x) (repeat 3%N (saltSizeBytes P)) (repeat 5%N (stateSizeBytes P)) (repeat 7%N (4 * stateSizeWords P)) /\
  exists chal i, getChallenge chal i = Ok ch.
Proof.
  intros p P ch x HP _ Hch Hx. split; [exact zero_locals_ok|]. split; [exact toy_env_bytes|]. split; [exact (toy_constants_all p P HP)|].
  split; [exact (demo_round_call p P ch x HP Hch Hx)|]. exists [if ch =? 0 then 0%N else if ch =? 1 then 128%N else 64%N], 0. destruct ch as [|[|[|ch]]]; [reflexivity|reflexivity|reflexivity|lia].
Qed.
