(** The situations in which verification computes the two opened views, and the third output shares. *)

From Coq Require Import List NArith Arith Bool.
From Verif Require Import Base Params Env Picnic1 MiniC CodeSpec CodeZkbSpec.
Import ListNotations.

(** Variable 0: memory of [numMPCRounds] blocks at [qs]; 1 and 2: addresses of the opened output shares [f1], [f2];
    3: address of the public key. *)
Record view3_call (P : paramset) (st : state) (qs : ptr) (f1 f2 : nat -> bytes) (pk : bytes) : Prop := {
  v3_slab : pv st 0 = [qs] /\ aligned qs /\ exists l, pts (nx st) (mm st) qs l /\ length l = numMPCRounds P * stateSizeBytes P;
  v3_out1 : constants st 1 (numMPCRounds P) f1 [(qs, numMPCRounds P * stateSizeBytes P)];
  v3_out2 : constants st 2 (numMPCRounds P) f2 [(qs, numMPCRounds P * stateSizeBytes P)];
  v3_len : forall i, i < numMPCRounds P -> length (f1 i) = stateSizeBytes P /\ length (f2 i) = stateSizeBytes P;
  v3_pk : exists q, pv st 3 = [q] /\ reads st [(qs, numMPCRounds P * stateSizeBytes P)] q pk /\ aligned q /\ length pk = stateSizeBytes P
}.

(** What the verifier's computation of one round writes: scratch memory, communicated bits of the first opened
    party, both output shares. *)
Definition ver_writes (P : paramset) (V1 : view) (qs qc : ptr) (qo : nat -> ptr) : list (ptr * nat) :=
  [(qs, 16 * stateSizeWords P); (qc, length (v_communicatedBits V1)); (qo 0, stateSizeBytes P); (qo 1, stateSizeBytes P)].

(** The caller: as for the signer, with two parties. Index variable 1 holds the challenge. *)
Record ver_call (E : env) (P : paramset) (st : state) (T : nat -> bytes) (V : nat -> view) (pt : bytes) (ch : nat) (qs qc : ptr) (qo : nat -> ptr) : Prop := {
  vc_pos : iv st 0 = 0;
  vc_ch : iv st 1 = ch;
  vc_tapes : exists q, pv st 0 = for2 q /\ forall j, j < 2 ->
    reads st (ver_writes P (V 0) qs qc qo) (q j) (T j) /\ 3 * numSboxes P * numRounds P <= 8 * length (T j);
  vc_keys : exists q, pv st 1 = for2 q /\ forall j, j < 2 ->
    reads st (ver_writes P (V 0) qs qc qo) (q j) (v_inputShare (V j)) /\ aligned (q j) /\ stateSizeBits P <= 8 * length (v_inputShare (V j));
  vc_comm : exists q2, pv st 2 = [qc; q2] /\ holds st qc (v_communicatedBits (V 0)) /\ 3 * numSboxes P * numRounds P <= 8 * length (v_communicatedBits (V 0)) /\
    reads st (ver_writes P (V 0) qs qc qo) q2 (v_communicatedBits (V 1)) /\ 3 * numSboxes P * numRounds P <= 8 * length (v_communicatedBits (V 1));
  vc_out : pv st 3 = for2 qo /\ forall j, j < 2 ->
    holds st (qo j) (v_outputShare (V j)) /\ length (v_outputShare (V j)) = stateSizeBytes P;
  vc_pt : exists q, pv st 4 = [q] /\ reads st (ver_writes P (V 0) qs qc qo) q pt /\ aligned q /\ length pt = 4 * stateSizeWords P;
  vc_slab : pv st 5 = [qs] /\ aligned qs /\ exists l, pts (nx st) (mm st) qs l /\ length l = 16 * stateSizeWords P;
  vc_apart : apart (ver_writes P (V 0) qs qc qo);
  vc_K : constants st 6 (numRounds P + 1) (KMatrix E P) (ver_writes P (V 0) qs qc qo);
  vc_L : constants st 7 (numRounds P) (LMatrix E P) (ver_writes P (V 0) qs qc qo);
  vc_C : constants st 8 (numRounds P) (RConstant E P) (ver_writes P (V 0) qs qc qo)
}.
