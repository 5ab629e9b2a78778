(** Memory use of signing and verification.  See [Memory.v] and [Alloc.v].

    The functions below allocate, store and load pointers, and release, in the order of the C code.  What
    depends on the contents of the byte arrays (which rounds are opened, whether a check fails, how long a
    revealed list is) is a parameter: the records [vflow] and [sflow].  Reads and writes of the byte
    arrays themselves are the subject of the other model files. *)

From Coq Require Import List NArith Arith Bool.
From Verif Require Import Base Params Memory Tree Alloc.
Import ListNotations.

Section P.
Variable P : paramset.
Let T := numMPCRounds P.

(** picnic3_impl.c:452-508 [expandChallengeHash]: the list of chunks. *)
Definition expandChallengeHash_mem : M unit :=
  chunks <~ calloc (digestSizeBytes P * 8 / Nat.min (ceil_log2_nat T) (ceil_log2_nat (numMPCParties P))) 2;;
  free chunks.

(** picnic3_impl.c:554-569 [getMissingLeavesList]. *)
Definition getMissingLeavesList_mem : M ptr := calloc (T - numOpenedRounds P) 2.

(** picnic3_impl.c:71-88 [createRandomTapes]: the tapes, and the pointers to the seeds. *)
Definition createRandomTapes_mem (tapes seeds : ptr) : M unit :=
  allocateRandomTape P tapes;;;
  mdo (numMPCParties P) (fun i => load (seeds +p 8 * i);;; ret tt).

(** What verification of a Picnic3 signature does depending on its data: [v_short] the signature is
    shorter than challenge and salt, [v_len] it has the expected length, [v_iLen], [v_cvLen],
    [v_sLen] the lengths of the three kinds of lists, [v_open t] round [t] is in challengeC,
    [v_pad t] the padding bits of round [t] are not zero, [v_rs0], [v_rs t] reconstructSeeds succeeds,
    [v_sim t] simulateOnline succeeds, [v_add], [v_ver] addMerkleNodes and verifyMerkleTree succeed,
    [v_cmp] the challenges agree. *)
Record vflow : Type := mkVflow {
  v_short : bool; v_len : bool; v_iLen : nat; v_cvLen : nat; v_sLen : nat;
  v_open : nat -> bool; v_pad : nat -> bool;
  v_rs0 : bool; v_rs : nat -> bool; v_sim : nat -> bool; v_add : bool; v_ver : bool; v_cmp : bool
}.

(** picnic3_impl.c:895-994 [deserializeSignature2]; the result is true for EXIT_SUCCESS. *)
Definition deserializeSignature2_mem (v : vflow) (sig : ptr) : M bool :=
  if v_short v then ret false else
  expandChallengeHash_mem;;;
  revealSeedsSize_mem P T (numOpenedRounds P);;;
  missingLeaves <~ getMissingLeavesList_mem;;
  openMerkleTreeSize_mem P T;;;
  free missingLeaves;;;
  revealSeedsSize_mem P (numMPCParties P) 1;;;
  if negb (v_len v) then ret false else
  p <~ malloc (v_iLen v);; store (sig +p 8) p;;;
  p <~ malloc (v_cvLen v);; store (sig +p 24) p;;;
  mfor_exit T 0 (fun t =>
    if v_open v t then
      proofs <~ load (sig +p 64);;
      allocateProof2 P (proofs +p 48 * t);;;
      p <~ malloc (v_sLen v);; store (proofs +p 48 * t) p;;;
      ret (negb (v_pad v t))
    else ret true).

(** picnic3_impl.c:570-729 [verify_picnic3]: the code before the label Exit; true for EXIT_SUCCESS. *)
Definition verify_picnic3_body (v : vflow) (Ch Cv treeCv seeds tapes iSeedsTree : ptr) : M bool :=
  revealSeeds_mem T (numOpenedRounds P);;;
  if negb (v_rs0 v) then ret false else
  go <~ mfor_exit T 0 (fun t =>
    if negb (v_open v t) then
      getLeaf_mem iSeedsTree T t;;;
      p <~ generateSeeds_mem P (numMPCParties P);; store (seeds +p 8 * t) p;;;
      ret true
    else
      p <~ createTree_mem (numMPCParties P) (seedSizeBytes P);; store (seeds +p 8 * t) p;;;
      revealSeeds_mem (numMPCParties P) 1;;;
      ret (v_rs v t));;
  if negb go then ret false else
  mdo T (fun t =>
    s <~ load (seeds +p 8 * t);;
    leaves <~ getLeaves_mem s (numMPCParties P);;
    createRandomTapes_mem (tapes +p 24 * t) leaves);;;
  allocateCommitments2 P Ch T;;;
  allocateCommitments2 P Cv T;;;
  tmp_shares <~ allocateShares (stateSizeBits P);;
  go <~ mfor_exit T 0 (fun t =>
    if v_open v t then ret (v_sim v t)
    else
      a <~ load Cv;;
      store (a +p 8 * t) Null;;;
      ret true);;
  freeShares tmp_shares;;;
  if negb go then ret false else
  missingLeaves <~ getMissingLeavesList_mem;;
  addMerkleNodes_mem T;;;
  free missingLeaves;;;
  ret (v_add v && v_ver v && v_cmp v).

(** picnic3_impl.c:570-729 [verify_picnic3]. *)
Definition verify_picnic3_mem (v : vflow) : M bool :=
  C <~ allocateCommitments P 0;;
  Ch <~ local_zero 16;;
  Cv <~ local_zero 16;;
  msgs <~ allocateMsgs P;;
  treeCv <~ createTree_mem T (digestSizeBytes P);;
  seeds <~ calloc T 8;;
  tapes <~ malloc (T * 24);;
  iSeedsTree <~ createTree_mem T (seedSizeBytes P);;
  r <~ verify_picnic3_body v Ch Cv treeCv seeds tapes iSeedsTree;;
  freeCommitments C;;;
  freeCommitments2 Cv;;;
  freeCommitments2 Ch;;;
  freeMsgs msgs;;;
  freeTree treeCv;;;
  freeTree iSeedsTree;;;
  mdo T (fun t =>
    freeRandomTape (tapes +p 24 * t);;;
    s <~ load (seeds +p 8 * t);; freeTree s);;;
  free seeds;;;
  free tapes;;;
  local_end Ch;;;
  local_end Cv;;;
  ret r.

(** What signing does depending on its data: [g_sim t] the simulation of round [t] gives the public key,
    [g_open t] round [t] is in challengeC, [g_iLen], [g_cvLen], [g_sLen t] the lengths of the revealed
    lists, [g_ser] the signature fits in the caller's buffer. *)
Record sflow : Type := mkSflow {
  g_sim : nat -> bool; g_open : nat -> bool; g_iLen : nat; g_cvLen : nat; g_sLen : nat -> nat; g_ser : bool
}.

(** picnic3_impl.c:788-859: from the simulation to the end of the proofs; [treeCv] is returned. *)
Definition sign_picnic3_body (g : sflow) (sig Ch Cv : ptr) : M (bool * ptr) :=
  tmp_shares <~ allocateShares (stateSizeBits P);;
  go <~ mfor_exit T 0 (fun t => ret (g_sim g t));;
  freeShares tmp_shares;;;
  if negb go then ret (false, Null) else
  allocateCommitments2 P Ch T;;;
  allocateCommitments2 P Cv T;;;
  treeCv <~ createTree_mem T (digestSizeBytes P);;
  expandChallengeHash_mem;;;
  missingLeaves <~ getMissingLeavesList_mem;;
  p <~ openMerkleTree_mem T (g_cvLen g);; store (sig +p 24) p;;;
  free missingLeaves;;;
  p <~ malloc (T * seedSizeBytes P);; store (sig +p 8) p;;;
  revealSeeds_mem T (numOpenedRounds P);;;
  p <~ load (sig +p 8);; p <~ realloc p (g_iLen g);; store (sig +p 8) p;;;
  mdo T (fun t =>
    if g_open g t then
      proofs <~ load (sig +p 64);;
      allocateProof2 P (proofs +p 48 * t);;;
      p <~ malloc (numMPCParties P * seedSizeBytes P);; store (proofs +p 48 * t) p;;;
      revealSeeds_mem (numMPCParties P) 1;;;
      p <~ load (proofs +p 48 * t);; p <~ realloc p (g_sLen g t);; store (proofs +p 48 * t) p
    else ret tt);;;
  ret (true, treeCv).

(** picnic3_impl.c:746-893 [sign_picnic3]. *)
Definition sign_picnic3_mem (g : sflow) (sig : ptr) : M bool :=
  Ch <~ local_zero 16;;
  Cv <~ local_zero 16;;
  saltAndRoot <~ malloc (saltSizeBytes P + seedSizeBytes P);;
  iSeedsTree <~ generateSeeds_mem P T;;
  iSeeds <~ getLeaves_mem iSeedsTree T;;
  free saltAndRoot;;;
  tapes <~ malloc (T * 24);;
  seeds <~ malloc (T * 8);;
  mdo T (fun t =>
    load (iSeeds +p 8 * t);;;
    p <~ generateSeeds_mem P (numMPCParties P);; store (seeds +p 8 * t) p;;;
    leaves <~ getLeaves_mem p (numMPCParties P);;
    createRandomTapes_mem (tapes +p 24 * t) leaves);;;
  inputs <~ allocateInputs P;;
  C <~ allocateCommitments P 0;;
  msgs <~ allocateMsgs P;;
  r <~ sign_picnic3_body g sig Ch Cv;;
  let '(ok, treeCv) := r in
  mdo T (fun t =>
    freeRandomTape (tapes +p 24 * t);;;
    s <~ load (seeds +p 8 * t);; freeTree s);;;
  free tapes;;;
  free seeds;;;
  freeTree iSeedsTree;;;
  freeTree treeCv;;;
  freeCommitments C;;;
  freeCommitments2 Ch;;;
  freeCommitments2 Cv;;;
  freeInputs inputs;;;
  freeMsgs msgs;;;
  local_end Ch;;;
  local_end Cv;;;
  ret ok.

(** picnic_impl.c:354-432 [H3]: its buffer. *)
Definition H3_mem : M unit :=
  h <~ malloc (digestSizeBytes P);;
  free h.

(** picnic_impl.c:618-702 [verify]; [cmp]: the challenges agree. *)
Definition verify_mem (cmp : bool) : M bool :=
  as_ <~ allocateCommitments P 0;;
  gs <~ allocateGCommitments P;;
  viewOutputs <~ malloc (T * 3 * 8);;
  tmp <~ malloc (Nat.max (6 * stateSizeBytes P) (stateSizeBytes P + andSizeBytes P));;
  tape <~ malloc 24;;
  allocateRandomTape P tape;;;
  view1s <~ malloc (T * 24);;
  view2s <~ malloc (T * 24);;
  view3Slab <~ calloc (stateSizeBytes P) T;;
  mdo T (fun i =>
    allocateView P (view1s +p 24 * i);;;
    allocateView P (view2s +p 24 * i));;;
  computed <~ malloc (numBytes (2 * T));;
  H3_mem;;;
  free computed;;;
  free view3Slab;;;
  freeCommitments as_;;;
  mdo T (fun i =>
    freeView (view1s +p 24 * i);;;
    freeView (view2s +p 24 * i));;;
  free view1s;;;
  free view2s;;;
  free tmp;;;
  freeRandomTape tape;;;
  free tape;;;
  freeGCommitments gs;;;
  free viewOutputs;;;
  ret cmp.

(** picnic_impl.c:869-978 [sign_picnic1]. The function returns from inside the loop over the rounds
    when the simulation of a round does not give the public key (lines 909-912); the returns after a
    failing [createRandomTape] are never taken. The local variable [tape] ends with the function. *)
Definition sign_picnic1_mem (g : sflow) : M bool :=
  views <~ allocateViews P;;
  as_ <~ allocateCommitments P 0;;
  gs <~ allocateGCommitments P;;
  seeds <~ allocateSeeds P;;
  load (seeds +p (16 * T + 8));;;
  tape <~ local 24;;
  allocateRandomTape P tape;;;
  tmp <~ malloc (Nat.max (9 * stateSizeBytes P) (stateSizeBytes P + andSizeBytes P));;
  go <~ mfor_exit T 0 (fun k => ret (g_sim g k));;
  if negb go then local_end tape;;; ret false else
  viewOutputs <~ malloc (T * 3 * 8);;
  mdo T (fun i => mdo 3 (fun j =>
    v <~ load (views +p 8 * i);;
    o <~ load (v +p (24 * j + 16));;
    store (viewOutputs +p (24 * i + 8 * j)) o));;;
  H3_mem;;;
  free tmp;;;
  freeViews P views;;;
  freeCommitments as_;;;
  freeRandomTape tape;;;
  freeGCommitments gs;;;
  free viewOutputs;;;
  freeSeeds seeds;;;
  local_end tape;;;
  ret true.
End P.

(** picnic.c:372-452 [picnic_verify]; for ZKB++ [des] says whether deserializeSignature succeeds
    (it allocates nothing) and [v_cmp] whether the challenges agree. *)
Definition picnic_verify_mem (params : N) (des : bool) (v : vflow) : M bool :=
  match get_param_set params with
  | None => ret false
  | Some P =>
      if negb (is_picnic3 params) then
        sig <~ malloc 24;;
        allocateSignature P sig;;;
        if is_null sig then ret false else
        r <~ (if des then verify_mem P (v_cmp v) else ret false);;
        freeSignature P sig;;;
        free sig;;;
        ret r
      else
        sig <~ malloc 72;;
        allocateSignature2 P sig;;;
        if is_null sig then ret false else
        d <~ deserializeSignature2_mem P v sig;;
        r <~ (if d then verify_picnic3_mem P v else ret false);;
        freeSignature2 P sig;;;
        free sig;;;
        ret r
  end.

(** picnic.c:265-335 [picnic_sign]; serialization allocates nothing. *)
Definition picnic_sign_mem (params : N) (g : sflow) : M bool :=
  match get_param_set params with
  | None => ret false
  | Some P =>
      if negb (is_picnic3 params) then
        sig <~ malloc 24;;
        allocateSignature P sig;;;
        if is_null sig then ret false else
        r <~ sign_picnic1_mem P g;;
        freeSignature P sig;;;
        free sig;;;
        ret (r && g_ser g)
      else
        sig <~ malloc 72;;
        allocateSignature2 P sig;;;
        if is_null sig then ret false else
        r <~ sign_picnic3_mem P g sig;;
        freeSignature2 P sig;;;
        free sig;;;
        ret (r && g_ser g)
  end.

(** picnic.c:696-783 [print_signature] and 624-694 [print_signature2]: [sig] is a local variable; when
    deserialization fails the functions return without freeing it.  The result is true when a
    signature is printed.  That [printHex] stays inside the fields is not part of this model; see
    Print.v. *)
Definition print_signature_mem (params : N) (des : bool) (v : vflow) : M bool :=
  match get_param_set params with
  | None => ret false
  | Some P =>
      if negb (is_picnic3 params) then
        sig <~ local 24;;
        allocateSignature P sig;;;
        (if des then freeSignature P sig else ret tt);;;
        local_end sig;;;
        ret des
      else
        sig <~ local 72;;
        allocateSignature2 P sig;;;
        d <~ deserializeSignature2_mem P v sig;;
        (if d then freeSignature2 P sig else ret tt);;;
        local_end sig;;;
        ret d
  end.
