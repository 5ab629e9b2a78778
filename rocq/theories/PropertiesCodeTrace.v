(** What can be observed of ZKB++ signing on memory with pointers (picnic_impl.c:869-975). *)

From Coq Require Import List NArith Arith Bool Lia.
From Verif Require Import Base Params Env Spec LowMC Picnic1 MiniC CodeLowMC CodeSpec HashSpec CodeZkbSpec CodeSignAll CodeSignAllSpec CodeTraceSpec ApiSpec.
From Verif Require Import BaseFacts ParamFacts ApiFacts HashProofs CodeWitness CodeSignWitness CodeSignAllModel CodeSignAllWitness CodeTraceSign Witness.
Import ListNotations.

(** C80: everything observed of a run of ZKB++ signing that produces a signature (every branch, every address and width
    of an access, every number of iterations, and every datum that is branched on or used as an index) is computed by
    [sign_trace] from where the objects lie, the signature, the public key, the plaintext and the message. The signing
    key, the seeds and the contents of memory are not among its arguments: an observer who is given the signature learns
    nothing more about the key from the run than the signature says. *)
Theorem C80_sign_trace : forall U E p P fuel st q sk pub pt msg s,
  locals_ok U -> get_param_set p = Some P -> is_picnic3 p = false -> env_bytes_ok E -> constants_ok E P ->
  signer_call P E st q sk pub pt msg -> padding_zero P sk ->
  sign_picnic1 (with_shake E) P fuel sk pub pt msg = Ok (Some s) ->
  observed (run U (c_sign P (length msg) fuel) st) = Some (sign_trace (with_shake E) P fuel (place st) s pub pt msg).
Proof. exact sign_trace_code. Qed.
Print Assumptions C80_sign_trace.

(** Every ZKB++ parameter set and every message below 4 GiB: a caller with a valid key pair whose padding bits are zero.
    Signing succeeds unless the number of hashes allowed for the challenge is too small. *)
Example C80_example : forall p P msg fuel, get_param_set p = Some P -> is_picnic3 p = false -> bytes_ok msg -> short msg ->
  locals_ok zero_locals /\ env_bytes_ok toy_env /\ constants_ok toy_env P /\
  let sk := repeat 0%N (4 * stateSizeWords P) in let pt := repeat 7%N (4 * stateSizeWords P) in let pub := cipher toy_env P sk pt in
  signer_call P toy_env (demo_signer P 0 pub msg) (fun i => (i, 0)) sk pub pt msg /\ padding_zero P sk /\
  (sign_picnic1 (with_shake toy_env) P fuel sk pub pt msg <> NoFuel -> exists s, sign_picnic1 (with_shake toy_env) P fuel sk pub pt msg = Ok (Some s)).
Proof.
  intros p P msg fuel HP Hp Bm Sm. pose proof (get_param_set_wfP p P HP) as HW. pose proof (toy_constants_all p P HP) as HC.
  split; [exact zero_locals_ok|]. split; [exact toy_env_bytes|]. split; [exact HC|]. cbv zeta.
  set (sk := repeat 0%N (4 * stateSizeWords P)). set (pt := repeat 7%N (4 * stateSizeWords P)). destruct (cipher_ok toy_env P sk pt HW) as (A & B & C). set (pub := cipher toy_env P sk pt) in *.
  destruct (wfP_block P HW) as [W1 _].
  split; [apply (demo_signer_call p P 0); auto; lia|]. split; [intros i _; apply bit_zeros|].
  intros NF. pose proof (sign_spec (with_shake toy_env) P (get_param_set_wfP1 p P HP Hp) (shake_env toy_env toy_env_bytes) HC sk pub pt msg) as X.
  assert (L : forall x : N, length (repeat x (4 * stateSizeWords P)) = 4 * stateSizeWords P) by (intros; apply repeat_length).
  assert (X1 : stateSizeBytes P <= length sk /\ bytes_ok sk) by (unfold sk; rewrite L; split; [lia|apply repeat_ok; lia]).
  assert (X2 : stateSizeBytes P <= length pub /\ bytes_ok pub) by (split; [lia|exact C]).
  assert (X3 : stateSizeBytes P <= length pt /\ 4 * stateSizeWords P <= length pt /\ bytes_ok pt) by (unfold pt; rewrite L; split; [lia|split; [lia|apply repeat_ok; lia]]).
  specialize (X X1 X2 X3 fuel).
  destruct (sign_picnic1 _ P fuel sk pub pt msg) as [[s|]| | |]; try contradiction. exists s. reflexivity.
Qed.
