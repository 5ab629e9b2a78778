(** The functions of signing and verification that call the hash functions, in the language of MiniC. Pointers: 0
    KeccakRoundConstants, 1 the state of the local context, 2 a local number or prefix byte, from 3 on the arguments
    of the function. Index: 0, 1, 2 the integers of the context, 8 the last return code, 11 set when a call reports an
    error. Other integer arguments, the parameters among them, are constants of the program. *)

From Coq Require Import List NArith Arith Bool.
From Verif Require Import Base Params Env MiniC CodeLowMC CodeKeccak.
Import ListNotations.
Local Open Scope c_scope.

(** What is hashed: [n] bytes at entry [i] of pointer variable [a], or a number as 16 bits. *)
Inductive item : Type := Buf (a i n : nat) | Num (x : nat).

(** hash.c:83-88 [HashUpdateIntLE] on a little-endian platform. *)
Definition c_HashUpdateIntLE (A : pexp) (RC T : nat) (x : nat) : stmt :=
  Loc T (IC 2) (St 2 (P0 T) (DC (N.of_nat x)) ;; c_HashUpdate A (P0 T) RC (IC 2)).
Definition c_item (x : item) : stmt :=
  match x with
  | Buf a i n => c_HashUpdate (P0 1) (PV a (IC i)) 0 (IC n)
  | Num x => c_HashUpdateIntLE (P0 1) 0 2 x
  end.
Fixpoint c_items (l : list item) : stmt := match l with [] => Skip | x :: l' => c_item x ;; c_items l' end.
(** HashInit; HashUpdate and HashUpdateIntLE; HashFinal; HashSqueeze to entry [i] of [a]. *)
Definition c_digest (P : paramset) (prefix : option N) (l : list item) (a i n : nat) : stmt :=
  c_HashInit (use_shake128 P) prefix (P0 1) 0 2 ;; c_items l ;; c_HashFinal (P0 1) 0 ;; c_HashSqueeze (P0 1) (PV a (IC i)) 0 (IC n).
(** HashInstance ctx; (its three integers start without a value, which no run uses) *)
Definition with_ctx (s : stmt) : stmt := Loc 1 (IC 200) s.

Section Uses.
Variable P : paramset.

(** picnic_impl.c:288-307 [Commit]. Pointers: 3 seed, 4 view.inputShare, view.communicatedBits, view.outputShare, 5 hash. *)
Definition c_Commit : stmt := with_ctx
  (c_digest P HASH_PREFIX_4 [Buf 3 0 (seedSizeBytes P)] 5 0 (digestSizeBytes P) ;;
   c_digest P HASH_PREFIX_0 [Buf 5 0 (digestSizeBytes P); Buf 4 0 (stateSizeBytes P); Buf 4 1 (andSizeBytes P); Buf 4 2 (stateSizeBytes P)] 5 0 (digestSizeBytes P)).

(** picnic_impl.c:234-261 [createRandomTape]. Pointers: 3 seed, 4 salt, 5 tape. Index: 12 return value. *)
Definition c_createRandomTape (roundNumber playerNumber tapeLengthBytes : nat) : stmt := with_ctx
  (If (CLt (IC tapeLengthBytes) (IC (digestSizeBytes P))) (ISet 12 (IC 0))
    (c_digest P HASH_PREFIX_2 [Buf 3 0 (seedSizeBytes P)] 5 0 (digestSizeBytes P) ;;
     c_digest P HASH_PREFIX_NONE [Buf 5 0 (digestSizeBytes P); Buf 4 0 (saltSizeBytes P); Num roundNumber; Num playerNumber; Num tapeLengthBytes] 5 0 tapeLengthBytes ;;
     ISet 12 (IC 1))).

(** picnic_impl.c:310-334 [G]. Pointers: 3 seed, 4 view (as in Commit), 5 output. *)
Definition G_bytes (viewNumber : nat) : nat := seedSizeBytes P + andSizeBytes P + (if viewNumber =? 2 then stateSizeBytes P else 0).
Definition c_G (viewNumber : nat) : stmt := with_ctx
  (c_digest P HASH_PREFIX_5 [Buf 3 0 (seedSizeBytes P)] 5 0 (digestSizeBytes P) ;;
   c_digest P HASH_PREFIX_NONE
     ([Buf 5 0 (digestSizeBytes P)] ++ (if viewNumber =? 2 then [Buf 4 0 (stateSizeBytes P)] else []) ++ [Buf 4 1 (andSizeBytes P); Num (G_bytes viewNumber)])
     5 0 (G_bytes viewNumber)).

(** picnic_impl.c:847-866 [computeSeeds] after the allocation; picnic3_impl.c:731-744 [computeSaltAndRootSeed] (the same calls).
    Pointers: 3 privateKey, 4 message, 5 publicKey, 6 plaintext, 7 the output. *)
Definition c_derive (messageByteLength outLen : nat) : stmt := with_ctx
  (c_digest P HASH_PREFIX_NONE [Buf 3 0 (stateSizeBytes P); Buf 4 0 messageByteLength; Buf 5 0 (stateSizeBytes P); Buf 6 0 (stateSizeBytes P); Num (stateSizeBits P)] 7 0 outLen).
Definition c_computeSeeds (messageByteLength : nat) : stmt :=
  c_derive messageByteLength (seedSizeBytes P * (numMPCParties P * numMPCRounds P) + saltSizeBytes P).

(** picnic3_impl.c:213-228 [commit]. Pointers: 3 seed, 4 aux (when [has_aux], that is, aux is not NULL), 5 salt, 6 digest. *)
Definition c_commit (has_aux : bool) (t j : nat) : stmt := with_ctx
  (c_digest P HASH_PREFIX_NONE ([Buf 3 0 (seedSizeBytes P)] ++ (if has_aux then [Buf 4 0 (andSizeBytes P)] else []) ++ [Buf 5 0 (saltSizeBytes P); Num t; Num j]) 6 0 (digestSizeBytes P)).

(** Consecutive entries of a pointer variable; the loops are written out. *)
Definition entries (a cnt n : nat) : list item := map (fun i => Buf a i n) (seq 0 cnt).
(** picnic3_impl.c:230-240 [commit_h]. Pointers: 3 C->hashes, 4 digest. *)
Definition c_commit_h : stmt := with_ctx
  (c_digest P HASH_PREFIX_NONE (entries 3 (numMPCParties P) (digestSizeBytes P)) 4 0 (digestSizeBytes P)).
(** picnic3_impl.c:243-255 [commit_v]. Pointers: 3 input, 4 msgs->msgs, 5 digest. [pos]: msgs->pos. *)
Definition c_commit_v (pos : nat) : stmt := with_ctx
  (c_digest P HASH_PREFIX_NONE (Buf 3 0 (stateSizeBytes P) :: entries 4 (numMPCParties P) (numBytes pos)) 5 0 (digestSizeBytes P)).
(** picnic3_impl.c:533-547, the hash of [HCP]. Pointers: 3 Ch->hashes, 4 hCv, 5 salt, 6 pubKey, 7 plaintext, 8 message, 9 challengeHash. *)
Definition c_HCP_hash (messageByteLength : nat) : stmt := with_ctx
  (c_digest P HASH_PREFIX_NONE
     (entries 3 (numMPCRounds P) (digestSizeBytes P) ++
      [Buf 4 0 (digestSizeBytes P); Buf 5 0 (saltSizeBytes P); Buf 6 0 (stateSizeBytes P); Buf 7 0 (stateSizeBytes P); Buf 8 0 messageByteLength])
     9 0 (digestSizeBytes P)).
(** picnic3_impl.c:77-87 [createRandomTapes] after the allocation. Pointers: 3 seeds, 4 salt, 5 tapes->tape. *)
Definition c_createRandomTapes (t tapeSizeBytes : nat) : stmt := with_ctx
  (fold_right (fun i s => c_digest P HASH_PREFIX_NONE [Buf 3 i (seedSizeBytes P); Buf 4 0 (saltSizeBytes P); Num t; Num i] 5 i tapeSizeBytes ;; s)
     Skip (seq 0 (numMPCParties P))).
(** tree.c:123-134 [hashSeed]. Pointers: 3 inputSeed, 4 salt, 5 digest. The indices are converted to uint16_t. *)
Definition c_hashSeed (prefix : option N) (repIndex nodeIndex : nat) : stmt := with_ctx
  (c_digest P prefix [Buf 3 0 (seedSizeBytes P); Buf 4 0 (saltSizeBytes P); Num repIndex; Num nodeIndex] 5 0 (2 * seedSizeBytes P)).
(** tree.c:384-396, the hash of [computeParentHash]. Pointers: 3 tree->nodes, 4 salt. *)
Definition c_parentHash (hasRight : bool) (parent : nat) : stmt := with_ctx
  (c_digest P HASH_PREFIX_3
     ([Buf 3 (2 * parent + 1) (digestSizeBytes P)] ++ (if hasRight then [Buf 3 (2 * parent + 2) (digestSizeBytes P)] else []) ++ [Buf 4 0 (saltSizeBytes P); Num parent])
     3 parent (digestSizeBytes P)).
(** Three entries for each round. *)
Definition triples (a cnt n n' : nat) : list item := flat_map (fun i => [Buf a (3 * i) n; Buf a (3 * i + 1) n; Buf a (3 * i + 2) n']) (seq 0 cnt).
(** picnic_impl.c:362-398, the hash of [H3]. Pointers: 3 viewOutputs (three for each round), 4 as[i].hashes[j] (three for each round),
    5 gs[i].G[j] (three for each round), 6 circuitOutput, 7 plaintext, 8 salt, 9 message, 10 hash. *)
Definition c_H3_hash (messageByteLength : nat) : stmt := with_ctx
  (c_digest P HASH_PREFIX_1
     (triples 3 (numMPCRounds P) (stateSizeBytes P) (stateSizeBytes P) ++ triples 4 (numMPCRounds P) (digestSizeBytes P) (digestSizeBytes P) ++
      (if is_UR (transf P) then triples 5 (numMPCRounds P) (UnruhGWithoutInputBytes P) (UnruhGWithInputBytes P) else []) ++
      [Buf 6 0 (stateSizeBytes P); Buf 7 0 (stateSizeBytes P); Buf 8 0 (saltSizeBytes P); Buf 9 0 messageByteLength])
     10 0 (digestSizeBytes P)).
End Uses.
