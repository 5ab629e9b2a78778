(** What the properties about memory say. *)

From Coq Require Import List NArith Arith Bool Permutation.
From Verif Require Import Base Params Env Memory AllocApi Tree Picnic3.
Import ListNotations.

(** A memory that allocations, stores and releases can lead to: no block and no slot is listed twice, all
    blocks are older than the next one, and slots lie in live blocks. *)
Definition key (x : item) : nat * option nat := match x with Tok b _ _ => (b, None) | Cel b o _ => (b, Some o) end.
Definition bid (x : item) : nat := match x with Tok b _ _ => b | Cel b _ _ => b end.

Record wfm (L : list item) (nx : nat) : Prop := mkWfm {
  wm_keys : NoDup (map key L);
  wm_next : forall x, In x L -> bid x < nx;
  wm_cel : forall b o c, In (Cel b o c) L -> exists n h i, In (Tok b n h) L /\ o = 8 * i /\ i < n / 8
}.
(** No request is refused. *)
Definition grants (m : mem) : Prop := forall k, refuses m k = false.
Definition mem_wf (m : mem) : Prop := wfm (live m) (next m) /\ grants m.

(** The run [f] from [m] is defined (no invalid release, no access outside live blocks, no use of an
    uninitialised pointer), and afterwards exactly the blocks of [m] are live, with the same contents. *)
Definition leaves_no_block {A} (f : M A) (m : mem) (Q : A -> Prop) : Prop :=
  exists r m', f m = Ok (r, m') /\ mem_wf m' /\ Permutation (live m') (live m) /\ Q r.

(** The same, but a heap block of [n] bytes that is not in [m] stays allocated. *)
Definition leaves_block {A} (n : nat) (f : M A) (m : mem) (Q : A -> Prop) : Prop :=
  exists r m' b, f m = Ok (r, m') /\ (forall x, In x (live m) -> In x (live m')) /\
    In (Tok b n true) (live m') /\ (forall x, In x (live m) -> bid x <> b) /\ Q r.

(** [v] describes a run of picnic_verify with a Picnic3 parameter set on the signature [sg]: parsing
    fails in [v] when it fails for [sg]; otherwise the opened rounds are those of the parsed challenge,
    and the reconstructions of seed trees succeed in [v] when they succeed on the parsed lists. *)
Definition parses (P : paramset) (v : vflow) : bool :=
  negb (v_short v) && v_len v && forallb (fun t => negb (v_open v t && v_pad v t)) (seq 0 (numMPCRounds P)).

(** The checks of verify_picnic3 succeed in [v]. *)
Definition accepts (P : paramset) (v : vflow) : bool :=
  forallb (fun t => negb (v_open v t) || v_sim v t) (seq 0 (numMPCRounds P)) && (v_add v && v_ver v && v_cmp v).

Definition rebuilt (r : res (option tree)) : bool := match r with Ok (Some _) => true | _ => false end.

Definition follows (E : env) (P : paramset) (fuel : nat) (sg : bytes) (v : vflow) : Prop :=
  match deserializeSignature2 E P fuel sg with
  | Ok None => parses P v = false
  | Ok (Some s) =>
      v_rs0 v = rebuilt (t0 <- createTree (numMPCRounds P) (seedSizeBytes P);;
                         reconstructSeeds E P t0 (g_challengeC s) (g_iSeedInfo s) (g_salt s) 0) /\
      forall t, t < numMPCRounds P ->
        v_open v t = contains (g_challengeC s) t /\
        (contains (g_challengeC s) t = true ->
         v_rs v t = rebuilt (t0 <- createTree (numMPCParties P) (seedSizeBytes P);;
                             u <- unopened_party (g_challengeC s) (g_challengeP s) t;;
                             q <- rd_proof (g_proofs s) t;;
                             reconstructSeeds E P t0 [u] (q_seedInfo q) (g_salt s) t))
  | _ => False
  end.
