(** The whole of ZKB++ verification on memory with pointers (picnic_impl.c:618-702). *)

From Coq Require Import List NArith Arith Bool Lia.
From Verif Require Import Base Params Env Spec LowMC Picnic1 MiniC CodeSpec HashSpec CodeZkbSpec CodeVerAll CodeVerAllSpec ApiSpec.
From Verif Require Import CodeSignThm CodeVerifyProofs CodeVerAllProofs CodeVerAllWitness CodeWitness Witness.
Import ListNotations.

(** C78: ZKB++ verification of a received signature, with all rounds, the hash for the challenge and the comparison,
    on memory with pointers and SHAKE itself, in C order (any parameter set but Picnic_L1_full, where C58 applies): for
    every proof and message it runs to the end without an access out of bounds or misaligned, changes only the buffers
    it allocates, and gives the answer of the verification model. Where the model finds no challenge within the hashes
    allowed, neither does the code. *)
Theorem C78_verify_code : forall U E p P st q sg pub pt msg fuel,
  locals_ok U -> get_param_set p = Some P -> is_picnic3 p = false -> p <> Picnic_L1_full -> env_bytes_ok E -> constants_ok E P ->
  verify_call P E st q sg pub pt msg ->
  exists st' t, run U (c_verify P (length msg) fuel) st = Some (st', t) /\
    chg (nx st) (mm st) (mm st') (verify_writes P q) /\ nx st' = nx st /\
    match verify (with_shake E) P fuel sg pub pt msg with
    | Ok b => iv st' 2 = 1 /\ iv st' 3 = (if b then 1 else 0)
    | NoFuel => iv st' 2 = 0
    | _ => False
    end.
Proof. exact verify_code. Qed.
Print Assumptions C78_verify_code.

(** Every such parameter set, a signature made of arbitrary equal bytes, every message below 4 GiB. *)
Example C78_example : forall p P x msg, get_param_set p = Some P -> is_picnic3 p = false -> p <> Picnic_L1_full -> (x < 200)%N -> bytes_ok msg -> short msg ->
  locals_ok zero_locals /\ env_bytes_ok toy_env /\ constants_ok toy_env P /\
  verify_call P toy_env (demo_verify P x msg) (at_block P) (demo_signature P x) (repeat 5%N (stateSizeBytes P)) (repeat 7%N (4 * stateSizeWords P)) msg.
Proof.
  intros p P x msg HP Hp Hf Hx Bm Sm. split; [exact zero_locals_ok|]. split; [exact toy_env_bytes|]. split; [exact (toy_constants_all p P HP)|].
  exact (demo_verify_call p P x msg HP (zkb_block_sizes p P HP Hp Hf) Hx Bm Sm).
Qed.
