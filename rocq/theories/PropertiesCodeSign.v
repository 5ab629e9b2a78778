(** Property theorems: the rounds of ZKB++ signing with pointers. *)

From Coq Require Import List NArith Arith Bool Lia.
From Verif Require Import Base Params Env Spec LowMC Picnic1 MiniC CodeLowMC CodeSpec HashSpec CodeZkbSpec CodeSign CodeSignSpec ApiSpec.
From Verif Require Import BaseFacts ParamFacts CodeWitness CodeZkbWitness CodeSignThm CodeSignWitness Witness.
Import ListNotations.

(** C75: the loop over the rounds of ZKB++ signing, with the functions it calls (random tapes, input shares,
    computation, comparison with the public key, commitments, G) on memory with pointers and SHAKE itself: no access
    out of bounds or misaligned, only scratch memory, tapes, views and commitments change. The loop goes through for the
    key pairs that satisfy the LowMC relation and fails for all others; when it goes through, every view and commitment
    is stored where the rest of the signer looks for it, with the contents the signature model works with. *)
Theorem C75_sign_rounds_code : forall U E p P st q allSeeds salt sk pub pt,
  locals_ok U -> get_param_set p = Some P -> is_picnic3 p = false -> env_bytes_ok E -> constants_ok E P ->
  sign_call P E st q allSeeds salt sk pub pt ->
  exists st' t, run U (c_sign_loop P) st = Some (st', t) /\
    chg (nx st) (mm st) (mm st') (sign_writes P q) /\
    (forall x, x <> 2 -> iv st' x = iv st x) /\ dv st' = dv st /\ pv st' = pv st /\ nx st' = nx st /\
    match sign_rounds (with_shake E) P (numMPCRounds P) 0 allSeeds salt sk pub pt with
    | Ok (Some rds) => iv st' 2 = 1 /\ lowmc_relation E P sk pt pub /\ length rds = numMPCRounds P /\
        forall k j rd, nth_error rds k = Some rd -> j < 3 -> stored P st' q k j rd
    | Ok None => iv st' 2 = 0 /\ ~ lowmc_relation E P sk pt pub
    | _ => False
    end.
Proof. exact sign_rounds_code. Qed.
Print Assumptions C75_sign_rounds_code.

(** Every ZKB++ parameter set: a caller with a valid key pair and one with an invalid key pair. *)
Example C75_example : forall p P, get_param_set p = Some P -> is_picnic3 p = false ->
  locals_ok zero_locals /\ env_bytes_ok toy_env /\ constants_ok toy_env P /\
  let sk := repeat 5%N (stateSizeBytes P) in let pt := repeat 7%N (4 * stateSizeWords P) in
  let good := cipher toy_env P sk pt in let bad := lxor_list good (repeat 128%N (stateSizeBytes P)) in
  lowmc_relation toy_env P sk pt good /\ ~ lowmc_relation toy_env P sk pt bad /\
  forall pub, pub = good \/ pub = bad ->
    sign_call P toy_env (demo_sign P 5 pub) (fun i => (i, 0)) (repeat 6%N (3 * numMPCRounds P * seedSizeBytes P)) (repeat 7%N (saltSizeBytes P)) sk pub pt.
Proof.
  intros p P HP _. pose proof (get_param_set_wfP p P HP) as HW.
  split; [exact zero_locals_ok|]. split; [exact toy_env_bytes|]. split; [exact (toy_constants_all p P HP)|]. cbv zeta.
  set (sk := repeat 5%N (stateSizeBytes P)). set (pt := repeat 7%N (4 * stateSizeWords P)). destruct (cipher_ok toy_env P sk pt HW) as (A & B & C). set (good := cipher toy_env P sk pt) in *.
  assert (Lr : length (repeat 128%N (stateSizeBytes P)) = stateSizeBytes P) by apply repeat_length.
  split; [exact A|]. split.
  - intros [X _]. destruct A as [A _]. specialize (A 0 (wf_n P HW)). specialize (X 0 (wf_n P HW)). rewrite <- A in X. rewrite bit_lxor_list in X by congruence.
    assert (Y : bit (repeat 128%N (stateSizeBytes P)) 0 = true).
    { pose proof (wf_n P HW) as N0. pose proof (numBytes_spec (stateSizeBits P)) as NS. rewrite <- (wf_sB P HW) in NS. destruct (stateSizeBytes P); [lia|reflexivity]. }
    rewrite Y in X. destruct (bit good 0); discriminate.
  - intros pub [-> | ->]; apply (demo_sign_call p P 5); auto; try lia.
    + apply bytes_ok_lxor; [exact C|apply repeat_ok; lia].
    + rewrite length_lxor_list by congruence. lia.
Qed.

(** C76: for valid key pairs the addresses accessed, branches taken and iteration counts of that loop depend neither on
    the secret key nor on the seeds, nor on any other contents of memory. *)
Theorem C76_sign_rounds_constant_time : forall U U' E p P x y q q' allSeeds allSeeds' salt salt' sk sk' pub pub' pt pt',
  locals_ok U -> locals_ok U' -> get_param_set p = Some P -> is_picnic3 p = false -> env_bytes_ok E -> constants_ok E P ->
  sign_call P E x q allSeeds salt sk pub pt -> sign_call P E y q' allSeeds' salt' sk' pub' pt' ->
  lowmc_relation E P sk pt pub -> lowmc_relation E P sk' pt' pub' -> same_public x y ->
  observed (run U (c_sign_loop P) x) = observed (run U' (c_sign_loop P) y).
Proof. exact sign_rounds_constant_time. Qed.
Print Assumptions C76_sign_rounds_constant_time.

(** Two key pairs; a program that branches on a byte of the secret key is told apart. *)
Example C76_example : exists P, get_param_set Picnic_L1_UR = Some P /\ is_picnic3 Picnic_L1_UR = false /\
  let sk x := repeat x (stateSizeBytes P) in let pt := repeat 7%N (4 * stateSizeWords P) in let pub x := cipher toy_env P (sk x) pt in
  (forall x, (x < 200)%N -> lowmc_relation toy_env P (sk x) pt (pub x) /\
     sign_call P toy_env (demo_sign P x (pub x)) (fun i => (i, 0)) (repeat (x + 1)%N (3 * numMPCRounds P * seedSizeBytes P)) (repeat (x + 2)%N (saltSizeBytes P)) (sk x) (pub x) pt) /\
  same_public (demo_sign P 0 (pub 0%N)) (demo_sign P 1 (pub 1%N)) /\
  (let c := Seq (Ld 1 0 (PV 12 (IC 0))) (IfD (DV 0) Skip (Ld 1 0 (PV 12 (IC 0)))) in
   observed (run zero_locals c (demo_sign P 0 [])) <> observed (run zero_locals c (demo_sign P 1 []))).
Proof.
  destruct (get_param_set Picnic_L1_UR) as [P|] eqn:HP; [|discriminate HP]. exists P. pose proof (get_param_set_wfP _ P HP) as HW.
  split; [reflexivity|]. split; [reflexivity|]. cbv zeta. split; [|split].
  - intros x Hx. destruct (cipher_ok toy_env P (repeat x (stateSizeBytes P)) (repeat 7%N (4 * stateSizeWords P)) HW) as (A & B & C). split; [exact A|].
    apply (demo_sign_call _ P x _ HP Hx C). rewrite B. auto.
  - apply sign_same_public; rewrite ?repeat_length; auto.
    destruct (cipher_ok toy_env P (repeat 0%N (stateSizeBytes P)) (repeat 7%N (4 * stateSizeWords P)) HW) as (_ & -> & _).
    destruct (cipher_ok toy_env P (repeat 1%N (stateSizeBytes P)) (repeat 7%N (4 * stateSizeWords P)) HW) as (_ & -> & _). reflexivity.
  - injection HP as <-. vm_compute. discriminate.
Qed.
