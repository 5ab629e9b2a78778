(** Parameter sets: picnic.h enum, picnic.c:23-52 and 87-200. *)

From Coq Require Import List NArith Arith Bool String.
From Verif Require Import Base.
Import ListNotations.

(** picnic_impl.h [transform_t]. *)
Inductive transform := TRANSFORM_FS | TRANSFORM_UR | TRANSFORM_INVALID.

Definition is_UR (t : transform) : bool :=
  match t with TRANSFORM_UR => true | _ => false end.

(** picnic_impl.h [paramset_t] (uint32_t fields; all values are far below 2^32). *)
Record paramset : Type := mkParams {
  numRounds : nat;
  numSboxes : nat;
  stateSizeBits : nat;
  stateSizeBytes : nat;
  stateSizeWords : nat;
  andSizeBytes : nat;
  UnruhGWithoutInputBytes : nat;
  UnruhGWithInputBytes : nat;
  numMPCRounds : nat;
  numOpenedRounds : nat;
  numMPCParties : nat;
  seedSizeBytes : nat;
  saltSizeBytes : nat;
  digestSizeBytes : nat;
  transf : transform
}.

(** picnic.h enum [picnic_params_t]. *)
Definition Picnic_L1_FS : N := 1.
Definition Picnic_L1_UR : N := 2.
Definition Picnic_L3_FS : N := 3.
Definition Picnic_L3_UR : N := 4.
Definition Picnic_L5_FS : N := 5.
Definition Picnic_L5_UR : N := 6.
Definition Picnic3_L1 : N := 7.
Definition Picnic3_L3 : N := 8.
Definition Picnic3_L5 : N := 9.
Definition Picnic_L1_full : N := 10.
Definition Picnic_L3_full : N := 11.
Definition Picnic_L5_full : N := 12.
Definition PARAMETER_SET_MAX_INDEX : N := 13.

(** picnic.c:23-30 [is_valid_params]. *)
Definition is_valid_params (params : N) : bool :=
  N.ltb 0 params && N.ltb params PARAMETER_SET_MAX_INDEX.

(** picnic.c:32-52 [get_transform]. *)
Definition get_transform (parameters : N) : transform :=
  match parameters with
  | 1 | 3 | 5 | 7 | 8 | 9 | 10 | 11 | 12 => TRANSFORM_FS
  | 2 | 4 | 6 => TRANSFORM_UR
  | _ => TRANSFORM_INVALID
  end%N.

(** picnic.c:54-85 [picnic_get_param_name]. *)
Definition picnic_get_param_name (parameters : N) : string :=
  match parameters with
  | 1%N => "Picnic_L1_FS"%string | 2%N => "Picnic_L1_UR"%string
  | 3%N => "Picnic_L3_FS"%string | 4%N => "Picnic_L3_UR"%string
  | 5%N => "Picnic_L5_FS"%string | 6%N => "Picnic_L5_UR"%string
  | 7%N => "Picnic3_L1"%string | 8%N => "Picnic3_L3"%string | 9%N => "Picnic3_L5"%string
  | 10%N => "Picnic_L1_full"%string | 11%N => "Picnic_L3_full"%string | 12%N => "Picnic_L5_full"%string
  | _ => "Unknown parameter set"%string
  end.

(** picnic.c:93-185, the table: (pqSecurityLevel, stateSizeBits, numMPCRounds,
    numOpenedRounds, numMPCParties, numSboxes, numRounds, digestSizeBytes). *)
Definition param_table (p : N) : option (nat * nat * nat * nat * nat * nat * nat * nat) :=
  match p with
  | 1%N | 2%N  => Some (64, 128, 219, 0, 3, 10, 20, 32)
  | 3%N | 4%N  => Some (96, 192, 329, 0, 3, 10, 30, 48)
  | 5%N | 6%N  => Some (128, 256, 438, 0, 3, 10, 38, 64)
  | 7%N      => Some (64, 129, 250, 36, 16, 43, 4, 32)
  | 8%N      => Some (96, 192, 419, 52, 16, 64, 4, 48)
  | 9%N      => Some (128, 255, 601, 68, 16, 85, 4, 64)
  | 10%N     => Some (64, 129, 219, 0, 3, 43, 4, 32)
  | 11%N     => Some (96, 192, 329, 0, 3, 64, 4, 48)
  | 12%N     => Some (128, 255, 438, 0, 3, 85, 4, 64)
  | _      => None
  end.

(** lowmc_constants.h [WORD_SIZE_BITS]. *)
Definition WORD_SIZE_BITS : nat := 32.

(** picnic.c:87-200 [get_param_set]; [None] models the -1 return. *)
Definition get_param_set (picnicParams : N) : option paramset :=
  match param_table picnicParams with
  | None => None
  | Some (pqSecurityLevel, bits, T, u, N_, m, r, digest) =>
      let andB := numBytes (m * 3 * r) in
      let stB := numBytes bits in
      let seedB := numBytes (2 * pqSecurityLevel) in
      let words := (bits + WORD_SIZE_BITS - 1) / WORD_SIZE_BITS in
      let tr := get_transform picnicParams in
      let ur := is_UR tr in
      Some {| numRounds := r; numSboxes := m; stateSizeBits := bits;
              stateSizeBytes := stB; stateSizeWords := words;
              andSizeBytes := andB;
              UnruhGWithoutInputBytes := if ur then seedB + andB else 0;
              UnruhGWithInputBytes := if ur then seedB + andB + stB else 0;
              numMPCRounds := T; numOpenedRounds := u; numMPCParties := N_;
              seedSizeBytes := seedB; saltSizeBytes := 32;
              digestSizeBytes := digest; transf := tr |}
  end.

(** picnic.c:257-265 [is_picnic3]. *)
Definition is_picnic3 (params : N) : bool :=
  (N.eqb params Picnic3_L1 || N.eqb params Picnic3_L3 || N.eqb params Picnic3_L5).
