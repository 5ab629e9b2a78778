(** Key generation, writing and reading the public key, signing and verification, each on a memory of its own. *)

From Coq Require Import List NArith Arith Bool Lia.
From Verif Require Import Base Params Env Spec LowMC Picnic1 MiniC CodeLowMC CodeSpec HashSpec CodeZkbSpec SigSpec CodeSerialize CodeSerializeSpec
  CodeDeserialize CodeDeserializeSpec CodeKeys CodeKeygen CodeKeysSpec Api ApiSpec.
From Verif Require Import BaseFacts ParamFacts CodeEndProofs CodeKeysThm CodeKeygenProofs.
Import ListNotations.

Theorem life_code U E p P rng st q :
  locals_ok U -> env_bytes_ok E -> get_param_set p = Some P -> is_picnic3 p = false -> p <> Picnic_L1_full -> constants_ok E P ->
  rng_wf rng -> keygen_call E P rng st q -> fst (rng 0 (stateSizeBytes P)) = true -> fst (rng 1 (stateSizeBytes P)) = true ->
  exists st' t pk sk, run U (c_keygen p P) st = Some (st', t) /\ iv st' 5 = 1 /\
    iv st' 7 = N.to_nat (pk_params pk) /\ iv st' 8 = N.to_nat (sk_params sk) /\ (forall j, j < 5 -> holds st' (q j) (key_pair_array pk sk j)) /\
    forall U1 st1 qb1 buf1 len1, write_call st1 qb1 buf1 len1 [pk_ciphertext pk; pk_plaintext pk] -> 1 + 2 * stateSizeBytes P <= len1 ->
    exists st1' t1 out, run U1 (c_write_key (pk_params pk) P 2) st1 = Some (st1', t1) /\ iv st1' 5 = 1 + 2 * stateSizeBytes P /\ holds st1' qb1 out /\
    forall U2 st2 q2 qb2 old, pk_wf old -> read_call st2 q2 qb2 out [pk_ciphertext old; pk_plaintext old] -> iv st2 7 = N.to_nat (pk_params old) ->
    exists st2' t2 pk', run U2 (c_read_key 2 false) st2 = Some (st2', t2) /\ iv st2' 5 = 1 /\ iv st2' 7 = N.to_nat (pk_params pk') /\
      holds st2' (q2 0) (pk_ciphertext pk') /\ holds st2' (q2 1) (pk_plaintext pk') /\ pk_params pk' = p /\
    forall U3 st3 q3 qb3 buf3 len3 msg fuel, locals_ok U3 -> N.to_nat (picnic_signature_size p) <= len3 -> api_call P E st3 q3 qb3 buf3 len3 sk msg ->
    exists st3' t3, run U3 (c_picnic_sign P (length msg) fuel) st3 = Some (st3', t3) /\
     (iv st3' 2 = 1 /\ iv st3' 3 = 0 \/
      exists sg, iv st3' 5 = 1 /\ iv st3' 10 = length sg /\ holds st3' qb3 sg /\
      forall U4 u st4 q4 g ps fuel', locals_ok U4 -> env_bytes_ok (with_uninit E u) -> fuel <= fuel' ->
      received_call P (with_uninit E u) st4 q4 g ps sg (pk_ciphertext pk') (firstn (4 * stateSizeWords P) (pk_plaintext pk')) msg ->
      exists st4' t4, run U4 (c_picnic_verify P (length msg) fuel') st4 = Some (st4', t4) /\ iv st4' 6 = 1).
Proof.
  intros HU HE HP H3 Hf HC HR HM F0 F1. destruct (keygen_code_is U E p P rng st q HU HE HP HC HR HM) as (z & t & pk & sk & R1 & _ & _ & R7 & R8 & _ & RA & R5 & R & _).
  rewrite F0, F1 in R5. cbn [andb] in R5. destruct (R R5) as (T1 & T2 & T3 & T4 & T5 & T6 & T7). exists z, t, pk, sk. repeat (split; [assumption|]).
  assert (PZ : pk_padding_zero P pk /\ padding_zero P (sk_data sk)).
  { assert (X : forall i, stateSizeBits P <= i -> bit (sk_data sk) i = false /\ bit (pk_plaintext pk) i = false).
    { intros i Hi. destruct (T7 i) as [A B]. rewrite A, B. rewrite (proj2 (Nat.ltb_ge i _)) by exact Hi. auto. }
    split; [split; [|apply T6]|]; intros i Hi; apply X; lia. }
  destruct PZ as [PZ1 PZ2]. intros U1 st1 qb1 buf1 len1 HM1 L1.
  destruct (public_key_code_round_trip U1 P st1 qb1 buf1 len1 pk ltac:(rewrite T1; exact HP) T5 PZ1 HM1 L1) as (z1 & t1 & out & S1 & S2 & S3 & S).
  exists z1, t1, out. repeat (split; [assumption|]). intros U2 st2 q2 qb2 old Wo HM2 I7.
  destruct (S U2 st2 q2 qb2 old Wo HM2 I7) as (z2 & t2 & pk' & V1 & V2 & V3 & V4 & V5 & V6 & V7 & V8 & V9). exists z2, t2, pk'. repeat (split; [assumption|]).
  split; [congruence|]. intros U3 st3 q3 qb3 buf3 len3 msg fuel HU3 L3 HM3.
  destruct (sign_then_verify_code U3 E P st3 q3 qb3 buf3 len3 sk msg fuel HU3 ltac:(rewrite T2; exact HP) ltac:(rewrite T2; exact H3) ltac:(rewrite T2; exact Hf) HE HC T4 PZ2
              ltac:(rewrite T3; exact T6) ltac:(rewrite T2; exact L3) HM3) as (z3 & t3 & X1 & X2).
  exists z3, t3. split; [exact X1|]. destruct X2 as [X2|(sg & X2 & X3 & X4 & X5)]; [left; exact X2|]. right. exists sg. repeat (split; [assumption|]).
  intros U4 u st4 q4 g ps fuel' HU4 HE4 Hfu HM4. apply (X5 U4 u st4 q4 g ps pk' fuel'); auto. unfold pk_of. rewrite T3. split; [congruence|]. split; [exact V8|exact V9].
Qed.
