(** The whole of ZKB++ signing on memory with pointers (picnic_impl.c:435-464,869-975). *)

From Coq Require Import List NArith Arith Bool Lia.
From Verif Require Import Base Params Env Spec LowMC Picnic1 MiniC CodeLowMC CodeSpec HashSpec CodeZkbSpec CodeSignAll CodeSignAllSpec ApiSpec.
From Verif Require Import BaseFacts ParamFacts CodeWitness CodeSignWitness CodeSignAllProofs CodeSignAllWitness Witness.
Import ListNotations.

(** C79: ZKB++ signing of a message, from the derivation of the seeds over all rounds and the hash for the challenge to
    the proofs put into the signature, on memory with pointers and SHAKE itself, in C order: it runs to the end without
    an access out of bounds or misaligned and changes only its own buffers and the signature. Where the model produces a
    signature, exactly that signature lies in the caller's structure at the end; where the model reports failure, so does
    the code; where the model finds no challenge within the hashes allowed, neither does the code. *)
Theorem C79_sign_code : forall U E p P st q sk pub pt msg fuel,
  locals_ok U -> get_param_set p = Some P -> is_picnic3 p = false -> env_bytes_ok E -> constants_ok E P ->
  signer_call P E st q sk pub pt msg ->
  exists st' t, run U (c_sign P (length msg) fuel) st = Some (st', t) /\
    chg (nx st) (mm st) (mm st') (signer_writes P q) /\ nx st' = nx st /\
    match sign_picnic1 (with_shake E) P fuel sk pub pt msg with
    | Ok (Some s) => iv st' 2 = 1 /\ iv st' 3 = 1 /\ signature_stored P st' q s
    | Ok None => iv st' 2 = 0
    | NoFuel => iv st' 2 = 1 /\ iv st' 3 = 0
    | _ => False
    end.
Proof. exact sign_code. Qed.
Print Assumptions C79_sign_code.

(** Every ZKB++ parameter set and every message below 4 GiB: a caller with a valid key pair and one with an invalid key
    pair. *)
Example C79_example : forall p P msg, get_param_set p = Some P -> is_picnic3 p = false -> bytes_ok msg -> short msg ->
  locals_ok zero_locals /\ env_bytes_ok toy_env /\ constants_ok toy_env P /\
  let sk := repeat 5%N (4 * stateSizeWords P) in let pt := repeat 7%N (4 * stateSizeWords P) in
  let good := cipher toy_env P sk pt in let bad := lxor_list good (repeat 128%N (stateSizeBytes P)) in
  lowmc_relation toy_env P sk pt good /\ ~ lowmc_relation toy_env P sk pt bad /\
  forall pub, pub = good \/ pub = bad -> signer_call P toy_env (demo_signer P 5 pub msg) (fun i => (i, 0)) sk pub pt msg.
Proof.
  intros p P msg HP _ Bm Sm. pose proof (get_param_set_wfP p P HP) as HW.
  split; [exact zero_locals_ok|]. split; [exact toy_env_bytes|]. split; [exact (toy_constants_all p P HP)|]. cbv zeta.
  set (sk := repeat 5%N (4 * stateSizeWords P)). set (pt := repeat 7%N (4 * stateSizeWords P)). destruct (cipher_ok toy_env P sk pt HW) as (A & B & C). set (good := cipher toy_env P sk pt) in *.
  assert (Lr : length (repeat 128%N (stateSizeBytes P)) = stateSizeBytes P) by apply repeat_length.
  split; [exact A|]. split.
  - intros [X _]. destruct A as [A _]. specialize (A 0 (wf_n P HW)). specialize (X 0 (wf_n P HW)). rewrite <- A in X. rewrite bit_lxor_list in X by congruence.
    assert (Y : bit (repeat 128%N (stateSizeBytes P)) 0 = true).
    { pose proof (wf_n P HW) as N0. pose proof (numBytes_spec (stateSizeBits P)) as NS. rewrite <- (wf_sB P HW) in NS. destruct (stateSizeBytes P); [lia|reflexivity]. }
    rewrite Y in X. destruct (bit good 0); discriminate.
  - intros pub [-> | ->]; apply (demo_signer_call p P 5); auto; try lia.
    + apply bytes_ok_lxor; [exact C|apply repeat_ok; lia].
    + rewrite length_lxor_list by congruence. lia.
Qed.
