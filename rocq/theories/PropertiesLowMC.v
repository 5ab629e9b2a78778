(** Property theorems: LowMC. *)

From Coq Require Import List NArith Arith Bool.
From Verif Require Import Base Params Env Spec LowMC Api ApiSpec.
From Verif Require Import ParamFacts LowMCFacts LowMCInj Witness.
Import ListNotations.

(** C24: LowMCEnc computes the specified cipher; the result is determined by the first
    [stateSizeBits] bits of key and plaintext and does not depend on uninitialised memory. *)
Theorem C24_LowMCEnc : forall E P, wfP P -> forall pt out key,
  env_bytes_ok E -> constants_ok E P ->
  bytes_ok pt -> bytes_ok key -> bytes_ok out ->
  stateSizeBits P <= 8 * length key -> 4 * stateSizeWords P <= length pt ->
  4 * stateSizeWords P <= length out ->
  exists o, LowMCEnc E P pt out key = Ok o /\ length o = length out /\ bytes_ok o
    /\ forall i, bit o i =
         if i <? stateSizeBits P then lowmc_enc (lowmc_of E P) (bit key) (bit pt) i
         else if i <? 32 * stateSizeWords P then false else bit out i.
Proof. exact LowMCEnc_ex. Qed.
Print Assumptions C24_LowMCEnc.

(** The cipher depends only on the block bits of key and plaintext. *)
Theorem C24_block_bits_only : forall L key key' p p',
  3 * lm_m L <= lm_n L -> veq (lm_n L) key key' -> veq (lm_n L) p p' ->
  veq (lm_n L) (lowmc_enc L key p) (lowmc_enc L key' p').
Proof. exact lowmc_enc_ext. Qed.
Print Assumptions C24_block_bits_only.

Example C24_example : exists P, get_param_set Picnic_L5_full = Some P /\ wfP P
  /\ env_bytes_ok toy_env /\ constants_ok toy_env P.
Proof.
  destruct (get_param_set Picnic_L5_full) as [P|] eqn:HP; [|discriminate HP]. exists P.
  exact (conj eq_refl (conj (get_param_set_wfP _ _ HP)
          (conj toy_env_bytes (toy_constants_all _ _ HP)))).
Qed.

(** C25: encryption under a fixed key is injective. *)
Theorem C25_injective : forall L key p p',
  3 * lm_m L <= lm_n L -> (forall j, j < lm_r L -> invertible (lm_n L) (lm_L L j)) ->
  veq (lm_n L) (lowmc_enc L key p) (lowmc_enc L key p') -> veq (lm_n L) p p'.
Proof. exact lowmc_enc_inj. Qed.
Print Assumptions C25_injective.

Example C25_example : exists P, get_param_set Picnic3_L1 = Some P /\
  3 * lm_m (lowmc_of toy_env P) <= lm_n (lowmc_of toy_env P) /\
  (forall j, j < lm_r (lowmc_of toy_env P) ->
     invertible (lm_n (lowmc_of toy_env P)) (lm_L (lowmc_of toy_env P) j)).
Proof. exact toy_invertible. Qed.
