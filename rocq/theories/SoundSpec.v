(** Vocabulary for the soundness of Picnic3: the strings that the verification of a signature hashes,
    in terms of the scheme of KkwSpec.v. *)

From Coq Require Import List NArith Arith Bool.
From Verif Require Import Base Params Env Spec Tree Picnic3 ZkbppSpec KkwSpec P3Spec.
Import ListNotations.

(** A signature structure whose fields have the sizes required by its challenge. The challenge need
    not be the one derived from the challenge hash. *)
Definition sig2_shape (P : paramset) (s : signature2) : Prop :=
  let T := numMPCRounds P in
  length (g_salt s) = saltSizeBytes P /\ length (g_challengeHash s) = digestSizeBytes P /\
  chal3_wf P (g_challengeC s) (g_challengeP s) /\
  revealSeedsSize P T (g_challengeC s) = Ok (length (g_iSeedInfo s)) /\
  openMerkleTreeSize P T (filter (fun t => negb (existsb (Nat.eqb t) (g_challengeC s))) (seq 0 T))
    = Ok (length (g_cvInfo s)) /\
  length (g_proofs s) = T /\
  (forall k t v, nth_error (g_challengeC s) k = Some t -> nth_error (g_challengeP s) k = Some v ->
     exists q, nth_error (g_proofs s) t = Some (Some q) /\ proof2_wf P v q) /\
  (forall t, t < T -> ~ In t (g_challengeC s) -> nth_error (g_proofs s) t = Some None).

(** The opening of a repetition with unopened party [j], and the signature, in the terms of KkwSpec.v. *)
Definition as_kopen (P : paramset) (j : nat) (q : proof2) : kopen :=
  mkKopen (q_seedInfo q) (if j =? numMPCParties P - 1 then [] else q_aux q) (q_input q) (q_msgs q) (q_C q).
Definition as_ksig (P : paramset) (s : signature2) : ksig :=
  mkKsig (g_challengeHash s) (g_salt s) (g_iSeedInfo s) (g_cvInfo s)
    (map (fun o => match snd o with
                   | Some q => as_kopen P (unopened (g_challengeC s) (g_challengeP s) (fst o)) q
                   | None => mkKopen [] [] [] [] []
                   end) (combine (seq 0 (numMPCRounds P)) (g_proofs s))).

(** The places where the verifier hashes. *)
Inductive place : Type :=
| PChallenge                     (* the string hashed to the challenge *)
| PRow (t : nat)                 (* the commitments of repetition t *)
| PSeed (t j : nat)              (* commitment to party j of repetition t *)
| PView (t : nat)                (* view of repetition t *)
| PNode (i : nat).               (* node of the Merkle tree of the views *)

Definition place_prefix (x : place) : option N := match x with PNode _ => Some 3%N | _ => None end.

Section Strings.
Variable E : env.
Variable sp : sparams.
Variable Lm : lowmc.
Variable K0inv : matrix.
Variable Linv : nat -> matrix.
Variables C p M : bytes.
Variables LC LP : list nat.
Variable sg : ksig.

Let N' := sp_N sp.
Let T := sp_T sp.

Definition row_at (t : nat) : bytes := flat_map (vC E sp Lm K0inv Linv LC LP sg t) (seq 0 N').
Definition node_at (k i : nat) : bytes :=
  remerkle_node E sp T (ks_salt sg) (open_nodes T (not_in sp LC)) (ks_Cv sg) (vCv E sp Lm p LC LP sg) k i.

Definition hashed_at (x : place) : bytes :=
  match x with
  | PChallenge =>
      flat_map (fun t => Hp E sp (row_at t)) (seq 0 T) ++ node_at (depth T) 0 ++ ks_salt sg ++ (C ++ p) ++ M
  | PRow t => row_at t
  | PSeed t j =>
      vseed E sp LC LP sg t j ++ (if j =? N' - 1 then vaux E sp Lm K0inv Linv LC LP sg t else []) ++
      ks_salt sg ++ le16 t ++ le16 j
  | PView t => ko_key (vopen sg t) ++ flat_map (vmsgs E sp Lm p LC LP sg t) (seq 0 N')
  | PNode i =>
      let f := node_at (height T i - 1) in
      f (2 * i + 1) ++ (if in_tree T (2 * i + 2) then f (2 * i + 2) else missing_right sp T i) ++
      ks_salt sg ++ le16 i
  end.

(** The key that an opened repetition with masked key [key] stands for, when [LC], [sg] leave that
    repetition unchallenged and so show its tapes. *)
Definition extracted (key : bytes) (t : nat) : vec :=
  vxor (bit key) (key_mask sp K0inv (vtp E sp LC LP sg t)).
End Strings.

(** The same for a structure of the code. *)
Definition string_of (E : env) (P : paramset) (sp : sparams) (pub pt msg : bytes) (s : signature2) (x : place) : bytes :=
  hashed_at E sp (spec_lowmc E P sp) (spec_K0inv E P) (spec_Linv E P)
    (firstn (stateSizeBytes P) pub) (firstn (stateSizeBytes P) pt) msg
    (g_challengeC s) (g_challengeP s) (as_ksig P s) x.
Definition key_from (E : env) (P : paramset) (sp : sparams) (s : signature2) (masked : bytes) (t : nat) : vec :=
  extracted E sp (spec_K0inv E P) (g_challengeC s) (g_challengeP s) (as_ksig P s) masked t.

(** The string hashed to the challenge when the bytes [sg] are verified with a ZKB++ parameter set. *)
Definition zkb_string (E : env) (P : paramset) (sp : sparams) (pub pt msg sg : bytes) : bytes :=
  let C := firstn (stateSizeBytes P) pub in
  let p := firstn (stateSizeBytes P) pt in
  let Lm := spec_lowmc E P sp in
  match zkbpp_parse sp sg with
  | Some z => challenge_string sp (ver_out E sp Lm C p z) (ver_C E sp Lm p z) (ver_G E sp Lm p z) (C ++ p) (zs_salt z) msg
  | None => []
  end.
