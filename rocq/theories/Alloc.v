(** Memory use of [picnic_types.c] and of the trees of [tree.c].  See [Memory.v].

    Structure fields that are not pointers are left out; their slots keep what the allocation put there.
    Sizes are those of x86-64: randomTape_t 24, view_t 24, commitments_t 16, msgs_t 24, g_commitments_t 24,
    seeds_t 16, shares_t 16, proof_t 48, proof2_t 48, signature_t 24, signature2_t 72, tree_t 56. *)

From Coq Require Import List NArith Arith Bool.
From Verif Require Import Base Params Memory Tree.
Import ListNotations.

(** picnic_types.c:19-31 [allocateShares], [freeShares]. *)
Definition allocateShares (count : nat) : M ptr :=
  shares <~ malloc 16;;
  p <~ calloc count 2;;
  store shares p;;;
  ret shares.
Definition freeShares (shares : ptr) : M unit :=
  p <~ load shares;;
  free p;;;
  free shares.

Section P.
Variable P : paramset.

(** picnic_types.c:34-46 [allocateView], [freeView]. *)
Definition allocateView (view : ptr) : M unit :=
  p <~ calloc (stateSizeBytes P) 1;; store view p;;;
  p <~ calloc (andSizeBytes P) 1;; store (view +p 8) p;;;
  p <~ calloc (stateSizeBytes P) 1;; store (view +p 16) p.
Definition freeView (view : ptr) : M unit :=
  p <~ load view;; free p;;;
  p <~ load (view +p 8);; free p;;;
  p <~ load (view +p 16);; free p.

(** picnic_types.c:48-51 [getTapeSizeBytes]. *)
Definition getTapeSizeBytes : nat := 2 * andSizeBytes P.

(** picnic_types.c:53-64 [allocateRandomTape]. *)
Definition allocateRandomTape (tape : ptr) : M unit :=
  a <~ malloc (numMPCParties P * 8);;
  store tape a;;;
  slab <~ calloc 1 (numMPCParties P * getTapeSizeBytes);;
  mfor (numMPCParties P) 0 (fun i slab =>
    a <~ load tape;;
    store (a +p 8 * i) slab;;;
    ret (slab +p getTapeSizeBytes)) slab;;;
  ret tt.

(** picnic_types.c:66-72 [freeRandomTape]; the argument is the address of a structure, not NULL. *)
Definition freeRandomTape (tape : ptr) : M unit :=
  a <~ load tape;;
  s <~ load a;;
  free s;;;
  a <~ load tape;;
  free a.

(** picnic_types.c:74-85 [allocateProof2]. *)
Definition allocateProof2 (proof : ptr) : M unit :=
  mdo 6 (fun i => store (proof +p 8 * i) Null);;;
  store proof Null;;;
  p <~ malloc (digestSizeBytes P);; store (proof +p 24) p;;;
  p <~ calloc 1 (stateSizeBytes P);; store (proof +p 32) p;;;
  p <~ calloc 1 (andSizeBytes P);; store (proof +p 16) p;;;
  p <~ calloc 1 (andSizeBytes P);; store (proof +p 40) p.

(** picnic_types.c:86-93 [freeProof2]. *)
Definition freeProof2 (proof : ptr) : M unit :=
  p <~ load proof;; free p;;;
  p <~ load (proof +p 24);; free p;;;
  p <~ load (proof +p 32);; free p;;;
  p <~ load (proof +p 16);; free p;;;
  p <~ load (proof +p 40);; free p.

(** picnic_types.c:95-108 [allocateProof]. *)
Definition allocateProof (proof : ptr) : M unit :=
  p <~ malloc (seedSizeBytes P);; store proof p;;;
  p <~ malloc (seedSizeBytes P);; store (proof +p 8) p;;;
  p <~ malloc (stateSizeBytes P);; store (proof +p 16) p;;;
  p <~ malloc (andSizeBytes P);; store (proof +p 24) p;;;
  p <~ malloc (digestSizeBytes P);; store (proof +p 32) p;;;
  if 0 <? UnruhGWithInputBytes P then
    p <~ malloc (UnruhGWithInputBytes P);; store (proof +p 40) p
  else store (proof +p 40) Null.

(** picnic_types.c:110-118 [freeProof]. *)
Definition freeProof (proof : ptr) : M unit :=
  p <~ load proof;; free p;;;
  p <~ load (proof +p 8);; free p;;;
  p <~ load (proof +p 16);; free p;;;
  p <~ load (proof +p 24);; free p;;;
  p <~ load (proof +p 32);; free p;;;
  p <~ load (proof +p 40);; free p.

(** picnic_types.c:120-130 [allocateSignature]. *)
Definition allocateSignature (sig : ptr) : M unit :=
  p <~ malloc (numMPCRounds P * 48);; store sig p;;;
  mdo (numMPCRounds P) (fun i => p <~ load sig;; allocateProof (p +p 48 * i));;;
  p <~ malloc (numBytes (2 * numMPCRounds P));; store (sig +p 8) p;;;
  p <~ malloc (saltSizeBytes P);; store (sig +p 16) p.

(** picnic_types.c:132-141 [freeSignature]. *)
Definition freeSignature (sig : ptr) : M unit :=
  mdo (numMPCRounds P) (fun i => p <~ load sig;; freeProof (p +p 48 * i));;;
  p <~ load sig;; free p;;;
  p <~ load (sig +p 8);; free p;;;
  p <~ load (sig +p 16);; free p.

(** picnic_types.c:143-155 [allocateSignature2]. Offsets: salt 0, iSeedInfo 8, cvInfo 24,
    challengeHash 40, challengeC 48, challengeP 56, proofs 64. *)
Definition allocateSignature2 (sig : ptr) : M unit :=
  p <~ malloc (saltSizeBytes P);; store sig p;;;
  store (sig +p 8) Null;;;
  store (sig +p 24) Null;;;
  p <~ malloc (numOpenedRounds P * 2);; store (sig +p 48) p;;;
  p <~ malloc (numOpenedRounds P * 2);; store (sig +p 56) p;;;
  p <~ malloc (digestSizeBytes P);; store (sig +p 40) p;;;
  p <~ calloc (numMPCRounds P) 48;; store (sig +p 64) p.

(** picnic_types.c:157-169 [freeSignature2]. *)
Definition freeSignature2 (sig : ptr) : M unit :=
  p <~ load sig;; free p;;;
  p <~ load (sig +p 8);; free p;;;
  p <~ load (sig +p 24);; free p;;;
  p <~ load (sig +p 48);; free p;;;
  p <~ load (sig +p 56);; free p;;;
  p <~ load (sig +p 40);; free p;;;
  mdo (numMPCRounds P) (fun i => p <~ load (sig +p 64);; freeProof2 (p +p 48 * i));;;
  p <~ load (sig +p 64);; free p.

(** picnic_types.c:171-205 [allocateSeeds]. *)
Definition allocateSeeds : M ptr :=
  let T := numMPCRounds P in
  let n := numMPCParties P in
  let sz := seedSizeBytes P in
  seeds <~ malloc ((T + 1) * 16);;
  slab1 <~ malloc (T * n * sz + saltSizeBytes P);;
  slab2 <~ malloc (T * n * 8 + 8 + T * 8);;
  slab3 <~ malloc (T * sz + saltSizeBytes P);;
  s <~ mfor T 0 (fun i '(slab1, slab2, slab3) =>
    store (seeds +p 16 * i) slab2;;;
    store (seeds +p (16 * i + 8)) slab3;;;
    slab1' <~ mfor n 0 (fun j slab1 =>
      a <~ load (seeds +p 16 * i);;
      store (a +p 8 * j) slab1;;;
      ret (slab1 +p sz)) slab1;;
    ret (slab1', slab2 +p n * 8, slab3 +p sz)) (slab1, slab2, slab3);;
  let '(slab1, _, slab3) := s in
  store (seeds +p 16 * T) Null;;;
  store (seeds +p (16 * T + 8)) (if n =? 3 then slab1 else slab3);;;
  ret seeds.

(** picnic_types.c:207-213 [freeSeeds]. *)
Definition freeSeeds (seeds : ptr) : M unit :=
  a <~ load seeds;; p <~ load a;; free p;;;
  p <~ load (seeds +p 8);; free p;;;
  a <~ load seeds;; free a;;;
  free seeds.

(** picnic_types.c:215-235 [allocateCommitments]. *)
Definition allocateCommitments (numCommitments : nat) : M ptr :=
  let n := if numCommitments =? 0 then numMPCParties P else numCommitments in
  commitments <~ malloc (numMPCRounds P * 16);;
  slab <~ malloc (numMPCRounds P * (n * digestSizeBytes P + n * 8));;
  mfor (numMPCRounds P) 0 (fun i slab =>
    store (commitments +p 16 * i) slab;;;
    mfor n 0 (fun j slab =>
      a <~ load (commitments +p 16 * i);;
      store (a +p 8 * j) slab;;;
      ret (slab +p digestSizeBytes P)) (slab +p n * 8)) slab;;;
  ret commitments.

(** picnic_types.c:237-241 [freeCommitments]. *)
Definition freeCommitments (commitments : ptr) : M unit :=
  p <~ load commitments;; free p;;;
  free commitments.

(** picnic_types.c:245-258 [allocateCommitments2]. *)
Definition allocateCommitments2 (commitments : ptr) (numCommitments : nat) : M unit :=
  slab <~ malloc (numCommitments * digestSizeBytes P + numCommitments * 8);;
  store commitments slab;;;
  mfor numCommitments 0 (fun i slab =>
    a <~ load commitments;;
    store (a +p 8 * i) slab;;;
    ret (slab +p digestSizeBytes P)) (slab +p numCommitments * 8);;;
  ret tt.

(** picnic_types.c:260-267 [freeCommitments2]; the argument is not NULL. *)
Definition freeCommitments2 (commitments : ptr) : M unit :=
  p <~ load commitments;;
  match p with Null => ret tt | _ => free p end.

(** picnic_types.c:269-288 [allocateInputs], [freeInputs]. *)
Definition allocateInputs : M ptr :=
  inputs <~ calloc 1 (numMPCRounds P * (stateSizeWords P * 4 + 8));;
  mfor (numMPCRounds P) 0 (fun i slab =>
    store (inputs +p 8 * i) slab;;;
    ret (slab +p stateSizeWords P * 4)) (inputs +p numMPCRounds P * 8);;;
  ret inputs.
Definition freeInputs (inputs : ptr) : M unit := free inputs.

(** picnic_types.c:290-316 [allocateMsgs], [freeMsgs]. *)
Definition allocateMsgs : M ptr :=
  let n := numMPCParties P in
  msgs <~ malloc (numMPCRounds P * 24);;
  slab <~ calloc 1 (numMPCRounds P * (n * andSizeBytes P + n * 8));;
  mfor (numMPCRounds P) 0 (fun i slab =>
    store (msgs +p 24 * i) slab;;;
    mfor n 0 (fun j slab =>
      a <~ load (msgs +p 24 * i);;
      store (a +p 8 * j) slab;;;
      ret (slab +p andSizeBytes P)) (slab +p n * 8)) slab;;;
  ret msgs.
Definition freeMsgs (msgs : ptr) : M unit :=
  p <~ load msgs;; free p;;;
  free msgs.

(** picnic_types.c:318-343 [allocateViews], [freeViews]. *)
Definition allocateViews : M ptr :=
  views <~ malloc (numMPCRounds P * 8);;
  mdo (numMPCRounds P) (fun i =>
    v <~ calloc 3 24;; store (views +p 8 * i) v;;;
    mdo 3 (fun j => v <~ load (views +p 8 * i);; allocateView (v +p 24 * j)));;;
  ret views.
Definition freeViews (views : ptr) : M unit :=
  mdo (numMPCRounds P) (fun i =>
    mdo 3 (fun j => v <~ load (views +p 8 * i);; freeView (v +p 24 * j));;;
    v <~ load (views +p 8 * i);; free v);;;
  free views.

(** picnic_types.c:345-361 [allocateGCommitments]. *)
Definition allocateGCommitments : M ptr :=
  match transf P with
  | TRANSFORM_UR =>
      gs <~ malloc (numMPCRounds P * 24);;
      slab <~ malloc (UnruhGWithInputBytes P * numMPCRounds P * 3);;
      mfor (numMPCRounds P) 0 (fun i slab =>
        mfor 3 0 (fun j slab =>
          store (gs +p (24 * i + 8 * j)) slab;;;
          ret (slab +p UnruhGWithInputBytes P)) slab) slab;;;
      ret gs
  | _ => ret Null
  end.

(** picnic_types.c:363-369 [freeGCommitments]. *)
Definition freeGCommitments (gs : ptr) : M unit :=
  match gs with
  | Null => ret tt
  | _ => p <~ load gs;; free p;;; free gs
  end.
End P.

(** tree.c:45-75 [createTree]: the number of nodes. *)
Definition tree_nodes (numLeaves : nat) : nat :=
  let depth := ceil_log2_nat numLeaves + 1 in
  (2 ^ depth - 1) - (2 ^ (depth - 1) - numLeaves).

(** tree.c:45-75 [createTree]. Offsets in tree_t: nodes 8, haveNode 24, exists 32. *)
Definition createTree_mem (numLeaves dataSize : nat) : M ptr :=
  let n := tree_nodes numLeaves in
  tree <~ malloc 56;;
  p <~ malloc (n * 8);; store (tree +p 8) p;;;
  slab <~ calloc n dataSize;;
  mfor n 0 (fun i slab =>
    a <~ load (tree +p 8);;
    store (a +p 8 * i) slab;;;
    ret (slab +p dataSize)) slab;;;
  p <~ calloc n 1;; store (tree +p 24) p;;;
  p <~ calloc n 1;; store (tree +p 32) p;;;
  ret tree.

(** tree.c:77-86 [freeTree]. *)
Definition freeTree (tree : ptr) : M unit :=
  match tree with
  | Null => ret tt
  | _ =>
      a <~ load (tree +p 8);; p <~ load a;; free p;;;
      a <~ load (tree +p 8);; free a;;;
      p <~ load (tree +p 24);; free p;;;
      p <~ load (tree +p 32);; free p;;;
      free tree
  end.

(** tree.c:116-121 [getLeaf]: the pointer stored for leaf [i]. *)
Definition getLeaf_mem (tree : ptr) (numLeaves i : nat) : M ptr :=
  a <~ load (tree +p 8);;
  load (a +p 8 * (tree_nodes numLeaves - numLeaves + i)).

(** tree.c:111-114 [getLeaves]: the position of the leaves in the array of pointers. *)
Definition getLeaves_mem (tree : ptr) (numLeaves : nat) : M ptr :=
  a <~ load (tree +p 8);;
  ret (a +p 8 * (tree_nodes numLeaves - numLeaves)).

(** tree.c:235-291 [getRevealedNodes]: the path sets are released, the result is allocated.
    [hide] is the length of hideList. *)
Definition getRevealedNodes_mem (numLeaves hide : nat) : M ptr :=
  let pathLen := ceil_log2_nat numLeaves in
  pathSets <~ malloc (pathLen * 8);;
  slab <~ malloc (hide * pathLen * 8);;
  mfor pathLen 0 (fun i slab =>
    store (pathSets +p 8 * i) slab;;;
    ret (slab +p hide * 8)) slab;;;
  revealed <~ malloc (numLeaves * 8);;
  p <~ load pathSets;; free p;;;
  free pathSets;;;
  ret revealed.

(** tree.c:293-302 [revealSeedsSize]. *)
Definition revealSeedsSize_mem (P : paramset) (numLeaves hide : nat) : M unit :=
  tree <~ createTree_mem numLeaves (seedSizeBytes P);;
  revealed <~ getRevealedNodes_mem numLeaves hide;;
  freeTree tree;;;
  free revealed.

(** tree.c:304-330 [revealSeeds] and tree.c:332-360 [reconstructSeeds]: both only allocate and
    release the list of revealed nodes. The branch for an argument above INT_MAX, which allocates
    nothing, is left out: all lengths passed are below it. *)
Definition revealSeeds_mem (numLeaves hide : nat) : M unit :=
  revealed <~ getRevealedNodes_mem numLeaves hide;;
  free revealed.

(** tree.c:168-177 [generateSeeds]. *)
Definition generateSeeds_mem (P : paramset) (n : nat) : M ptr := createTree_mem n (seedSizeBytes P).

(** tree.c:422-471 [getRevealedMerkleNodes]. *)
Definition getRevealedMerkleNodes_mem (numLeaves : nat) : M ptr :=
  missingNodes <~ calloc (tree_nodes numLeaves) 1;;
  revealed <~ malloc (numLeaves * 8);;
  free missingNodes;;;
  ret revealed.

(** tree.c:473-484 [openMerkleTreeSize]. *)
Definition openMerkleTreeSize_mem (P : paramset) (numLeaves : nat) : M unit :=
  tree <~ createTree_mem numLeaves (digestSizeBytes P);;
  revealed <~ getRevealedMerkleNodes_mem numLeaves;;
  freeTree tree;;;
  free revealed.

(** tree.c:488-506 [openMerkleTree]; [outputSize] is the length of the result. *)
Definition openMerkleTree_mem (numLeaves outputSize : nat) : M ptr :=
  revealed <~ getRevealedMerkleNodes_mem numLeaves;;
  output <~ malloc outputSize;;
  free revealed;;;
  ret output.

(** tree.c:509-546 [addMerkleNodes]. *)
Definition addMerkleNodes_mem (numLeaves : nat) : M unit :=
  revealed <~ getRevealedMerkleNodes_mem numLeaves;;
  free revealed.
