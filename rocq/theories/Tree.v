(** Binary trees for seeds and for Merkle commitments: tree.c; and
    nlz/ceil_log2 (picnic3_impl.c:38-59). *)

From Coq Require Import List NArith Arith Bool.
From Verif Require Import Base Params Env.
Import ListNotations.

(** picnic3_impl.c:38-51 [nlz]; 32-bit arithmetic, left shifts wrap. *)
Definition shl32 (x k : N) : N := N.modulo (N.shiftl x k) (2 ^ 32).

Definition nlz (x : N) : N :=
  if N.eqb x 0 then 32%N
  else
    let n := 1%N in
    let '(n, x) := if N.eqb (N.shiftr x 16) 0 then (n + 16, shl32 x 16)%N else (n, x) in
    let '(n, x) := if N.eqb (N.shiftr x 24) 0 then (n + 8, shl32 x 8)%N else (n, x) in
    let '(n, x) := if N.eqb (N.shiftr x 28) 0 then (n + 4, shl32 x 4)%N else (n, x) in
    let '(n, x) := if N.eqb (N.shiftr x 30) 0 then (n + 2, shl32 x 2)%N else (n, x) in
    (n - N.shiftr x 31)%N.

(** picnic3_impl.c:53-59 [ceil_log2]. *)
Definition ceil_log2 (x : N) : N :=
  if N.eqb x 0 then 0%N else (32 - nlz (x - 1))%N.

(** The same on [nat] arguments (the argument is converted to uint32_t). *)
Definition ceil_log2_nat (x : nat) : nat :=
  N.to_nat (ceil_log2 (N.modulo (N.of_nat x) (2 ^ 32))).

(** limits.h INT_MAX. *)
Definition INT_MAX : N := 2147483647.
Definition exceeds_int (x : nat) : bool := N.ltb INT_MAX (N.of_nat x).

(** tree.h [tree_t]. *)
Record tree : Type := mkTree {
  t_depth : nat;
  t_nodes : list bytes;
  t_dataSize : nat;
  t_haveNode : list bool;
  t_exists : list bool;
  t_numNodes : nat;
  t_numLeaves : nat
}.

(** [for (i = n; i > 0; i--) s = body(i, s)]. *)
Fixpoint for_down {S : Type} (n : nat) (body : nat -> S -> res S) (s : S) : res S :=
  match n with
  | O => Ok s
  | Datatypes.S n' => s' <- body n s ;; for_down n' body s'
  end.

Fixpoint mapM {A B : Type} (f : A -> res B) (l : list A) : res (list B) :=
  match l with
  | [] => Ok []
  | x :: l' => y <- f x ;; ys <- mapM f l' ;; Ok (y :: ys)
  end.

Fixpoint foldM {A S : Type} (f : S -> A -> res S) (l : list A) (s : S) : res S :=
  match l with
  | [] => Ok s
  | x :: l' => s' <- f s x ;; foldM f l' s'
  end.

(** tree.c:24-32 [contains]. *)
Definition contains (l : list nat) (value : nat) : bool := existsb (Nat.eqb value) l.

(** tree.c:34-43 [exists], on the [exists] array. *)
Definition exists_arr (numNodes : nat) (ex : list bool) (i : nat) : res bool :=
  if numNodes <=? i then Ok false else rd ex i.

Definition tree_exists (t : tree) (i : nat) : res bool :=
  exists_arr (t_numNodes t) (t_exists t) i.

(** tree.c:45-75 [createTree]. The shifts are on [int]. *)
Definition createTree (numLeaves dataSize : nat) : res tree :=
  let depth := ceil_log2_nat numLeaves + 1 in
  _ <- guard (depth <? 31) ;;
  let numNodes := (2 ^ depth - 1) - (2 ^ (depth - 1) - numLeaves) in
  let ex := repeat false numNodes in
  ex <- blit ex (numNodes - numLeaves) (repeat true numLeaves) ;;
  ex <- for_down (numNodes - numLeaves)
          (fun i ex =>
             l <- exists_arr numNodes ex (2 * i + 1) ;;
             r <- (if (l : bool) then Ok true else exists_arr numNodes ex (2 * i + 2)) ;;
             if (r : bool) then wr ex i true else Ok ex) ex ;;
  ex <- wr ex 0 true ;;
  Ok {| t_depth := depth;
        t_nodes := repeat (zeros dataSize) numNodes;
        t_dataSize := dataSize;
        t_haveNode := repeat false numNodes;
        t_exists := ex;
        t_numNodes := numNodes;
        t_numLeaves := numLeaves |}.

Definition set_node (t : tree) (nodes : list bytes) (have : list bool) : tree :=
  {| t_depth := t_depth t; t_nodes := nodes; t_dataSize := t_dataSize t;
     t_haveNode := have; t_exists := t_exists t; t_numNodes := t_numNodes t;
     t_numLeaves := t_numLeaves t |}.

(** memcpy(tree->nodes[i], data, length data); tree->haveNode[i] = 1. *)
Definition put_node (t : tree) (i : nat) (data : bytes) : res tree :=
  old <- rd (t_nodes t) i ;;
  new <- blit old 0 data ;;
  nodes <- wr (t_nodes t) i new ;;
  have <- wr (t_haveNode t) i true ;;
  Ok (set_node t nodes have).

(** tree.c:87-91 [isLeftChild]. *)
Definition isLeftChild (node : nat) : res bool :=
  _ <- c_assert (negb (node =? 0)) ;; Ok (node mod 2 =? 1).

(** tree.c:93-96 [hasRightChild]. *)
Definition hasRightChild (t : tree) (node : nat) : res bool :=
  if 2 * node + 2 <? t_numNodes t then tree_exists t node else Ok false.

(** tree.c:101-109 [getParent]. *)
Definition getParent (node : nat) : res nat :=
  _ <- c_assert (negb (node =? 0)) ;;
  l <- isLeftChild node ;;
  if (l : bool) then Ok ((node - 1) / 2) else Ok ((node - 2) / 2).

(** tree.c:111-114 [getLeaves]: the array of leaf data. *)
Definition firstLeaf (t : tree) : nat := t_numNodes t - t_numLeaves t.
Definition getLeaves (t : tree) : list bytes := skipn (firstLeaf t) (t_nodes t).

(** tree.c:116-121 [getLeaf]. *)
Definition getLeaf (t : tree) (leafIndex : nat) : res bytes :=
  _ <- c_assert (leafIndex <? t_numLeaves t) ;;
  rd (t_nodes t) (firstLeaf t + leafIndex).

(** tree.c:179-182 [isLeafNode]. *)
Definition isLeafNode (t : tree) (node : nat) : bool := t_numNodes t <=? 2 * node + 1.

(** tree.c:184-195 [hasSibling]. *)
Definition hasSibling (t : tree) (node : nat) : res bool :=
  e <- tree_exists t node ;;
  if negb e then Ok false
  else
    l <- isLeftChild node ;;
    if (l : bool) then tree_exists t (node + 1) else Ok true.

(** tree.c:197-215 [getSibling]. *)
Definition getSibling (t : tree) (node : nat) : res nat :=
  _ <- c_assert (node <? t_numNodes t) ;;
  _ <- c_assert (negb (node =? 0)) ;;
  h <- hasSibling t node ;;
  _ <- c_assert h ;;
  l <- isLeftChild node ;;
  if (l : bool) then
    (if node + 1 <? t_numNodes t then Ok (node + 1) else Abort)
  else Ok (node - 1).

(** tree.c:251-260: nodes on the path from [node] up to, excluding, the root; [fuel] is the
    number of rows of pathSets, writing beyond is out of bounds. *)
Fixpoint path_up (fuel node : nat) : res (list nat) :=
  match fuel with
  | O => UB
  | S fuel' =>
      p <- getParent node ;;
      if p =? 0 then Ok [node]
      else rest <- path_up fuel' p ;; Ok (node :: rest)
  end.

(** tree.c:273-275: descend to a node with two children or a leaf; a path in the tree has at
    most [t_depth] steps, the fuel. *)
Fixpoint descend (fuel : nat) (t : tree) (sibling : nat) : res nat :=
  r <- hasRightChild t sibling ;;
  if (r : bool) || isLeafNode t sibling then Ok sibling
  else match fuel with
       | O => NoFuel
       | S fuel' => descend fuel' t (2 * sibling + 1)
       end.

(** tree.c:267-282: body of the inner loop of [getRevealedNodes]. *)
Definition reveal_step (t : tree) (level : list nat) (revealed : list nat) (node : nat)
  : res (list nat) :=
  h <- hasSibling t node ;;
  if negb h then Ok revealed
  else
    sibling <- getSibling t node ;;
    if contains level sibling then Ok revealed
    else
      sibling <- descend (t_depth t) t sibling ;;
      if contains revealed sibling then Ok revealed
      else
        _ <- guard (length revealed <? t_numLeaves t) ;;
        Ok (revealed ++ [sibling]).

(** tree.c:235-291 [getRevealedNodes]. *)
Definition getRevealedNodes (t : tree) (hideList : list nat) : res (list nat) :=
  let pathLen := t_depth t - 1 in
  _ <- guard (0 <? pathLen) ;;
  paths <- mapM (fun h => path_up pathLen (h + firstLeaf t)) hideList ;;
  for_loop pathLen 0
    (fun d revealed =>
       level <- mapM (fun p => rd p d) paths ;;
       foldM (reveal_step t level) level revealed) [].

(** tree.c:362-398, HCP etc. use [hash]; tree.c:123-134 [hashSeed]. *)
Section Tree.
Variable E : env.
Variable P : paramset.

Definition hashSeed (inputSeed salt : bytes) (prefix : option N) (repIndex nodeIndex : nat)
  : res bytes :=
  s <- slice inputSeed 0 (seedSizeBytes P) ;;
  sl <- slice salt 0 (saltSizeBytes P) ;;
  Ok (hash E P prefix [s; sl; intLE repIndex; intLE nodeIndex] (2 * seedSizeBytes P)).

Definition MAX_SEED_SIZE_BYTES : nat := 32.    (* tree.h:30 *)

(** tree.c:144-164: body of the loop of [expandSeeds]. *)
Definition expand_step (salt : bytes) (repIndex : nat) (i : nat) (t : tree) : res tree :=
  have <- rd (t_haveNode t) i ;;
  if negb have then Ok t
  else
    nd <- rd (t_nodes t) i ;;
    tmp <- hashSeed nd salt HASH_PREFIX_1 repIndex i ;;
    _ <- guard (length tmp <=? 2 * MAX_SEED_SIZE_BYTES) ;;
    hl <- rd (t_haveNode t) (2 * i + 1) ;;
    t <- (if negb hl then
            d <- slice tmp 0 (seedSizeBytes P) ;; put_node t (2 * i + 1) d
          else Ok t) ;;
    er <- tree_exists t (2 * i + 2) ;;
    if (er : bool) then
      hr <- rd (t_haveNode t) (2 * i + 2) ;;
      if negb hr then
        d <- slice tmp (seedSizeBytes P) (seedSizeBytes P) ;; put_node t (2 * i + 2) d
      else Ok t
    else Ok t.

(** tree.c:136-166 [expandSeeds]. *)
Definition expandSeeds (t : tree) (salt : bytes) (repIndex : nat) : res tree :=
  lastNonLeaf <- getParent (t_numNodes t - 1) ;;
  for_loop (lastNonLeaf + 1) 0 (expand_step salt repIndex) t.

(** tree.c:168-177 [generateSeeds]. *)
Definition generateSeeds (nSeeds : nat) (rootSeed salt : bytes) (repIndex : nat) : res tree :=
  t <- createTree nSeeds (seedSizeBytes P) ;;
  r <- slice rootSeed 0 (seedSizeBytes P) ;;
  t <- put_node t 0 r ;;
  expandSeeds t salt repIndex.

(** tree.c:293-302 [revealSeedsSize]. *)
Definition revealSeedsSize (numLeaves : nat) (hideList : list nat) : res nat :=
  t <- createTree numLeaves (seedSizeBytes P) ;;
  revealed <- getRevealedNodes t hideList ;;
  Ok (length revealed * seedSizeBytes P).

(** tree.c:304-330 [revealSeeds]: the bytes written to the output buffer of [outputSize] bytes;
    [None] models the return of (size_t)-1. *)
Definition revealSeeds (t : tree) (hideList : list nat) (outputSize : nat) : res (option bytes) :=
  if exceeds_int outputSize then Ok None
  else
    revealed <- getRevealedNodes t hideList ;;
    '(out, _) <-
      foldM (fun '(out, outLen) r =>
               _ <- c_assert (seedSizeBytes P <=? outLen) ;;
               nd <- rd (t_nodes t) r ;;
               d <- slice nd 0 (seedSizeBytes P) ;;
               Ok (out ++ d, outLen - seedSizeBytes P)) revealed ([], outputSize) ;;
    Ok (Some out).

(** tree.c:344-353: copy the revealed seeds into the tree; [None]: input too short. *)
Fixpoint put_revealed (sz : nat) (t : tree) (revealed : list nat) (input : bytes) (off inLen : nat)
  : res (option (tree * nat)) :=
  match revealed with
  | [] => Ok (Some (t, inLen))
  | r :: rest =>
      if inLen <? sz then Ok None
      else
        d <- slice input off sz ;;
        t <- put_node t r d ;;
        put_revealed sz t rest input (off + sz) (inLen - sz)
  end.

(** tree.c:332-360 [reconstructSeeds]; [None]: return -1. *)
Definition reconstructSeeds (t : tree) (hideList : list nat) (input salt : bytes) (repIndex : nat)
  : res (option tree) :=
  if exceeds_int (length input) then Ok None
  else
    revealed <- getRevealedNodes t hideList ;;
    r <- put_revealed (seedSizeBytes P) t revealed input 0 (length input) ;;
    match r with
    | None => Ok None
    | Some (t, _) => t <- expandSeeds t salt repIndex ;; Ok (Some t)
    end.

(** tree.c:362-398 [computeParentHash]. *)
Definition computeParentHash (salt : bytes) (child : nat) (t : tree) : res tree :=
  e <- tree_exists t child ;;
  if negb e then Ok t
  else
    parent <- getParent child ;;
    hp <- rd (t_haveNode t) parent ;;
    if (hp : bool) then Ok t
    else
      hl <- rd (t_haveNode t) (2 * parent + 1) ;;
      if negb hl then Ok t
      else
        er <- tree_exists t (2 * parent + 2) ;;
        hr <- (if (er : bool) then rd (t_haveNode t) (2 * parent + 2) else Ok true) ;;
        if negb hr then Ok t
        else
          l <- rd (t_nodes t) (2 * parent + 1) ;;
          l <- slice l 0 (digestSizeBytes P) ;;
          rc <- hasRightChild t parent ;;
          r <- (if (rc : bool)
                then r <- rd (t_nodes t) (2 * parent + 2) ;; slice r 0 (digestSizeBytes P)
                else Ok []) ;;
          sl <- slice salt 0 (saltSizeBytes P) ;;
          put_node t parent
                   (hash E P HASH_PREFIX_3 [l; r; sl; intLE parent] (digestSizeBytes P)).

(** tree.c:402-418 [buildMerkleTree]; a [None] leaf models a NULL pointer. *)
Definition buildMerkleTree (t : tree) (leafData : list (option bytes)) (salt : bytes) : res tree :=
  t <- for_loop (t_numLeaves t) 0
         (fun i t =>
            o <- rd leafData i ;;
            match o with
            | None => Ok t
            | Some d => d <- slice d 0 (t_dataSize t) ;; put_node t (firstLeaf t + i) d
            end) t ;;
  for_down (t_numNodes t) (computeParentHash salt) t.

(** tree.c:422-471 [getRevealedMerkleNodes]. *)
Definition mark_missing (t : tree) (missingLeaves : list nat) : res (list bool) :=
  let missing := repeat false (t_numNodes t) in
  missing <- foldM (fun m l => wr m (firstLeaf t + l) true) missingLeaves missing ;;
  lastNonLeaf <- getParent (t_numNodes t - 1) ;;
  for_down lastNonLeaf
    (fun i m =>
       e <- tree_exists t i ;;
       if negb e then Ok m
       else
         r <- tree_exists t (2 * i + 2) ;;
         ml <- rd m (2 * i + 1) ;;
         if (r : bool) then
           (if (ml : bool) then
              mr <- rd m (2 * i + 2) ;;
              if (mr : bool) then wr m i true else Ok m
            else Ok m)
         else if (ml : bool) then wr m i true else Ok m) missing.

(** tree.c:457-465: the do/while loop; [fuel] = depth of the tree. *)
Fixpoint highest_missing (fuel : nat) (missing : list bool) (node : nat) : res (option nat) :=
  match fuel with
  | O => NoFuel
  | S fuel' =>
      p <- getParent node ;;
      m <- rd missing p ;;
      if negb m then Ok (Some node)
      else if p =? 0 then Ok None
      else highest_missing fuel' missing p
  end.

Definition getRevealedMerkleNodes (t : tree) (missingLeaves : list nat) : res (list nat) :=
  missing <- mark_missing t missingLeaves ;;
  foldM (fun revealed l =>
           r <- highest_missing (t_depth t) missing (l + firstLeaf t) ;;
           match r with
           | None => Ok revealed
           | Some node =>
               if contains revealed node then Ok revealed
               else
                 _ <- guard (length revealed <? t_numLeaves t) ;;
                 Ok (revealed ++ [node])
           end) missingLeaves [].

(** tree.c:473-484 [openMerkleTreeSize]. *)
Definition openMerkleTreeSize (numLeaves : nat) (missingLeaves : list nat) : res nat :=
  t <- createTree numLeaves (digestSizeBytes P) ;;
  revealed <- getRevealedMerkleNodes t missingLeaves ;;
  Ok (length revealed * digestSizeBytes P).

(** tree.c:488-506 [openMerkleTree]. *)
Definition openMerkleTree (t : tree) (missingLeaves : list nat) : res bytes :=
  revealed <- getRevealedMerkleNodes t missingLeaves ;;
  l <- mapM (fun r => nd <- rd (t_nodes t) r ;; slice nd 0 (t_dataSize t)) revealed ;;
  Ok (concat l).

(** tree.c:509-546 [addMerkleNodes]; [None]: return -1. *)
Definition addMerkleNodes (t : tree) (missingLeaves : list nat) (input : bytes)
  : res (option tree) :=
  _ <- c_assert (length missingLeaves <? t_numLeaves t) ;;
  if exceeds_int (length input) then Ok None
  else
    revealed <- getRevealedMerkleNodes t missingLeaves ;;
    _ <- c_assert (negb (contains revealed 0)) ;;
    r <- put_revealed (t_dataSize t) t revealed input 0 (length input) ;;
    match r with
    | None => Ok None
    | Some (t, rest) => if rest =? 0 then Ok (Some t) else Ok None
    end.

(** tree.c:556-567: copy the leaves; [None]: a leaf was already supplied. *)
Fixpoint copy_leaves (n i : nat) (leafData : list (option bytes)) (t : tree) : res (option tree) :=
  match n with
  | O => Ok (Some t)
  | S n' =>
      o <- rd leafData i ;;
      match o with
      | None => copy_leaves n' (S i) leafData t
      | Some d =>
          h <- rd (t_haveNode t) (firstLeaf t + i) ;;
          if (h : bool) then Ok None
          else
            d <- slice d 0 (t_dataSize t) ;;
            t <- put_node t (firstLeaf t + i) d ;;
            copy_leaves n' (S i) leafData t
      end
  end.

(** tree.c:549-581 [verifyMerkleTree]; [None]: return -1. *)
Definition verifyMerkleTree (t : tree) (leafData : list (option bytes)) (salt : bytes)
  : res (option tree) :=
  r <- copy_leaves (t_numLeaves t) 0 leafData t ;;
  match r with
  | None => Ok None
  | Some t =>
      t <- for_down (t_numNodes t) (computeParentHash salt) t ;;
      h <- rd (t_haveNode t) 0 ;;
      if (h : bool) then Ok (Some t) else Ok None
  end.

End Tree.
