(** The situation in which the ZKB++ computation of the signer is called. *)

From Coq Require Import List NArith Arith Bool.
From Verif Require Import Base Params Env Spec Picnic1 MiniC CodeSpec.
Import ListNotations.

(** Regions without a common byte. *)
Definition apart (ws : list (ptr * nat)) : Prop := forall i j p k q l,
  nth_error ws i = Some (p, k) -> nth_error ws j = Some (q, l) -> i <> j -> disj p k q l.
(** [k] bytes at [q] outside the regions [ws]. *)
Definition outside (ws : list (ptr * nat)) (q : ptr) (k : nat) : Prop := forall p l, In (p, l) ws -> disj p l q k.
(** [l] is stored at [q], outside of [ws]. *)
Definition reads (st : state) (ws : list (ptr * nat)) (q : ptr) (l : bytes) : Prop :=
  pts (nx st) (mm st) q l /\ bytes_ok l /\ outside ws q (length l).
(** [l] is stored at [q]. *)
Definition holds (st : state) (q : ptr) (l : bytes) : Prop := pts (nx st) (mm st) q l /\ bytes_ok l.
(** A table of constants. *)
Definition constants (st : state) (a cnt : nat) (f : nat -> bytes) (ws : list (ptr * nat)) : Prop :=
  forall i, i < cnt -> exists q, nth_error (pv st a) i = Some q /\ reads st ws q (f i) /\ aligned q.

Definition for3 (q : nat -> ptr) : list ptr := [q 0; q 1; q 2].
Definition for2 (q : nat -> ptr) : list ptr := [q 0; q 1].

(** What the signer's computation writes: scratch memory, the communicated bits and the output shares. *)
Definition mpc_writes (P : paramset) (V : nat -> view) (qs : ptr) (qc qo : nat -> ptr) : list (ptr * nat) :=
  [(qs, 24 * stateSizeWords P);
   (qc 0, length (v_communicatedBits (V 0))); (qc 1, length (v_communicatedBits (V 1))); (qc 2, length (v_communicatedBits (V 2)));
   (qo 0, stateSizeBytes P); (qo 1, stateSizeBytes P); (qo 2, stateSizeBytes P)].

(** The caller: variables 0-3 hold the addresses of the tapes, input shares, communicated bits and output
    shares of the three parties, 4 and 5 of plaintext and scratch memory, 6-8 of the constants. *)
Record mpc_call (E : env) (P : paramset) (st : state) (T : nat -> bytes) (V : nat -> view) (pt : bytes) (qs : ptr) (qc qo : nat -> ptr) : Prop := {
  mc_pos : iv st 0 = 0;
  mc_tapes : exists q, pv st 0 = for3 q /\ forall j, j < 3 ->
    reads st (mpc_writes P V qs qc qo) (q j) (T j) /\ 3 * numSboxes P * numRounds P <= 8 * length (T j);
  mc_keys : exists q, pv st 1 = for3 q /\ forall j, j < 3 ->
    reads st (mpc_writes P V qs qc qo) (q j) (v_inputShare (V j)) /\ aligned (q j) /\ stateSizeBits P <= 8 * length (v_inputShare (V j));
  mc_comm : pv st 2 = for3 qc /\ forall j, j < 3 ->
    holds st (qc j) (v_communicatedBits (V j)) /\ 3 * numSboxes P * numRounds P <= 8 * length (v_communicatedBits (V j));
  mc_out : pv st 3 = for3 qo /\ forall j, j < 3 ->
    holds st (qo j) (v_outputShare (V j)) /\ length (v_outputShare (V j)) = stateSizeBytes P;
  mc_pt : exists q, pv st 4 = [q] /\ reads st (mpc_writes P V qs qc qo) q pt /\ aligned q /\ length pt = 4 * stateSizeWords P;
  mc_slab : pv st 5 = [qs] /\ aligned qs /\ exists l, pts (nx st) (mm st) qs l /\ length l = 24 * stateSizeWords P;
  mc_apart : apart (mpc_writes P V qs qc qo);
  mc_K : constants st 6 (numRounds P + 1) (KMatrix E P) (mpc_writes P V qs qc qo);
  mc_L : constants st 7 (numRounds P) (LMatrix E P) (mpc_writes P V qs qc qo);
  mc_C : constants st 8 (numRounds P) (RConstant E P) (mpc_writes P V qs qc qo)
}.
