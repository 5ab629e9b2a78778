(** Picnic3 (KKW) signatures: picnic3_impl.c:61-1059. *)

From Coq Require Import List NArith Arith Bool.
From Verif Require Import Base Params Env LowMC Tree.
Import ListNotations.

(** picnic3_impl.c:61-69 [parity16]. *)
Definition parity16 (x : N) : bool :=
  let y := N.lxor x (N.shiftr x 1) in
  let y := N.lxor y (N.shiftr y 2) in
  let y := N.lxor y (N.shiftr y 4) in
  let y := N.lxor y (N.shiftr y 8) in
  N.eqb (N.land y 1) 1.

(** The memory image of a uint16_t (little-endian), and back. *)
Definition w16_bytes (w : N) : bytes := [N.modulo w 256; N.modulo (N.div w 256) 256].
Definition bytes_w16 (b : bytes) : res N :=
  b0 <- rd b 0 ;; b1 <- rd b 1 ;; Ok (b0 + 256 * b1)%N.

(** picnic_types.h [randomTape_t]. *)
Record tapes_t : Type := mkTapes { tp_tape : list bytes; tp_pos : nat }.

(** picnic_types.h [msgs_t]; [None] is unopened = -1. *)
Record msgs_t : Type := mkMsgs { ms_msgs : list bytes; ms_pos : nat; ms_unopened : option nat }.

(** picnic3_impl.h:20-27 [proof2_t]; lengths are those of the byte lists. *)
Record proof2 : Type := mkProof2 {
  q_seedInfo : bytes;
  q_aux : bytes;
  q_C : bytes;
  q_input : bytes;
  q_msgs : bytes
}.

(** picnic3_impl.h:29-39 [signature2_t]; challengeC and challengeP have numOpenedRounds
    entries; [None] in [g_proofs] is a zeroed (not allocated) proof2_t. *)
Record signature2 : Type := mkSig2 {
  g_salt : bytes;
  g_iSeedInfo : bytes;
  g_cvInfo : bytes;
  g_challengeHash : bytes;
  g_challengeC : list nat;
  g_challengeP : list nat;
  g_proofs : list (option proof2)
}.

(** Sites of uninitialised memory. *)
Definition site_tapesToWord : nat := 50.
Definition site_aux_roundKey : nat := 51.
Definition site_aux_y : nat := 52.
Definition site_aux_key : nat := 53.
Definition site_aux_key0 : nat := 54.
Definition site_C : nat := 55.

(** picnic3_impl.c:31 [MAX_AUX_BYTES] = (3*38*10 + 4 + 256) / 8 + 1; hash.h:25. *)
Definition MAX_AUX_BYTES : nat := 176.
Definition MAX_DIGEST_SIZE : nat := 64.

(** picnic3_impl.c:346-355 [indexOf]; the final assert fails. *)
Fixpoint indexOf (l : list nat) (value : nat) : res nat :=
  match l with
  | [] => Abort
  | x :: l' => if x =? value then Ok 0 else i <- indexOf l' value ;; Ok (S i)
  end.

(** The entry of a [proof2_t] array; using a zeroed entry dereferences NULL. *)
Definition rd_proof (l : list (option proof2)) (t : nat) : res proof2 :=
  o <- rd l t ;; match o with Some p => Ok p | None => UB end.

(** picnic3_impl.c:128-131 [extend]. *)
Definition extend (bit : bool) : N := if bit then 65535%N else 0%N.

Section Picnic3.
Variable E : env.
Variable P : paramset.

Definition p3_tapeSize : nat := 2 * andSizeBytes P.    (* picnic_types.c:48-51 *)

(** picnic3_impl.c:71-88 [createRandomTapes]. *)
Definition createRandomTapes (seeds : list bytes) (salt : bytes) (t : nat) : res tapes_t :=
  tape <- mapM_seq (numMPCParties P) 0
            (fun i =>
               s <- rd seeds i ;;
               s <- slice s 0 (seedSizeBytes P) ;;
               sl <- slice salt 0 (saltSizeBytes P) ;;
               Ok (hash E P HASH_PREFIX_NONE [s; sl; intLE t; intLE i] p3_tapeSize)) ;;
  Ok (mkTapes tape 0).

(** picnic3_impl.c:90-100 [tapesToWord]. *)
Definition tapesToWord (tp : tapes_t) : res (N * tapes_t) :=
  sh <- for_loop 16 0
          (fun i sh =>
             t <- rd (tp_tape tp) i ;;
             b <- getBit t (tp_pos tp) ;;
             setBit sh i b) (uninit E site_tapesToWord 0 2) ;;
  w <- bytes_w16 sh ;;
  Ok (w, mkTapes (tp_tape tp) (S (tp_pos tp))).

(** picnic3_impl.c:107-112 [tapesToWords]; the caller's array has [n] entries, all of which are
    overwritten, so the result is a new list. *)
Fixpoint tapesToWords (n : nat) (tp : tapes_t) : res (list N * tapes_t) :=
  match n with
  | O => Ok ([], tp)
  | S n' =>
      '(w, tp) <- tapesToWord tp ;;
      '(ws, tp) <- tapesToWords n' tp ;;
      Ok (w :: ws, tp)
  end.

(** picnic3_impl.c:114-119 [tapesToParityBits]. *)
Definition tapesToParityBits (output : bytes) (outputBitLen : nat) (tp : tapes_t)
  : res (bytes * tapes_t) :=
  for_loop outputBitLen 0
    (fun i '(output, tp) =>
       '(w, tp) <- tapesToWord tp ;;
       output <- setBit output i (parity16 w) ;;
       Ok (output, tp)) (output, tp).

(** picnic3_impl.c:133-140 [aux_mpc_AND]. *)
Definition aux_mpc_AND (mask_a mask_b fresh_output_mask : bool) (tp : tapes_t) : res tapes_t :=
  let lastParty := numMPCParties P - 1 in
  '(w, tp) <- tapesToWord tp ;;
  tl <- rd (tp_tape tp) lastParty ;;
  lb <- getBit tl (tp_pos tp - 1) ;;
  let and_helper := xorb (parity16 w) lb in
  let aux_bit := xorb (xorb (mask_a && mask_b) and_helper) fresh_output_mask in
  tl <- setBit tl (tp_pos tp - 1) aux_bit ;;
  tape <- wr (tp_tape tp) lastParty tl ;;
  Ok (mkTapes tape (tp_pos tp)).

(** picnic3_impl.c:142-161 [aux_mpc_sbox]; [k] is [i/3]. *)
Definition aux_mpc_sbox (inp out : bytes) (tp : tapes_t) : res tapes_t :=
  for_loop (numSboxes P) 0
    (fun k tp =>
       let i := 3 * k in
       a <- getBit inp (i + 2) ;;
       b <- getBit inp (i + 1) ;;
       c <- getBit inp i ;;
       d <- getBit out (i + 2) ;;
       e <- getBit out (i + 1) ;;
       f <- getBit out i ;;
       let fresh_output_mask_ab := xorb (xorb (xorb f a) b) c in
       let fresh_output_mask_bc := xorb d a in
       let fresh_output_mask_ca := xorb (xorb e a) b in
       tp <- aux_mpc_AND a b fresh_output_mask_ab tp ;;
       tp <- aux_mpc_AND b c fresh_output_mask_bc tp ;;
       aux_mpc_AND c a fresh_output_mask_ca tp) tp.

(** picnic3_impl.c:168-209 [computeAuxTape]; also returns the first stateSizeBytes bytes of
    [key], which the C code copies to [inputs] when that pointer is not NULL. *)
Definition computeAuxTape (tp : tapes_t) : res (tapes_t * bytes) :=
  let W := stateSizeWords P in
  let n := stateSizeBits P in
  let roundKey := uninit E site_aux_roundKey 0 LOWMC_MAX_STATE_BYTES in
  let x := zeros LOWMC_MAX_STATE_BYTES in
  let y := uninit E site_aux_y 0 LOWMC_MAX_STATE_BYTES in
  let key := uninit E site_aux_key 0 LOWMC_MAX_STATE_BYTES in
  key0 <- blit (uninit E site_aux_key0 0 LOWMC_MAX_STATE_BYTES) (4 * (W - 1)) (zeros 4) ;;
  '(key0, tp) <- tapesToParityBits key0 n tp ;;
  key <- matrix_mul E P key key0 (KMatrixInv E P 0) ;;
  inputs <- slice key 0 (stateSizeBytes P) ;;
  '(tp, _, _, _) <-
    for_down (numRounds P)
      (fun r '(tp, roundKey, x, y) =>
         roundKey <- matrix_mul E P roundKey key (KMatrix E P r) ;;
         x <- xor_array x x roundKey W ;;
         y <- matrix_mul E P y x (LMatrixInv E P (r - 1)) ;;
         '(x, tp) <-
            (if r =? 1 then
               k <- slice key0 0 (stateSizeBytes P) ;;
               x <- blit x 0 k ;; Ok (x, tp)
             else tapesToParityBits x n (mkTapes (tp_tape tp) (n * 2 * (r - 1)))) ;;
         tp <- aux_mpc_sbox x y (mkTapes (tp_tape tp) (n * 2 * (r - 1) + n)) ;;
         Ok (tp, roundKey, x, y)) (tp, roundKey, x, y) ;;
  Ok (mkTapes (tp_tape tp) 0, inputs).

(** picnic3_impl.c:213-228 [commit]; [aux] = [None] models NULL. *)
Definition commit (seed : bytes) (aux : option bytes) (salt : bytes) (t j : nat) : res bytes :=
  s <- slice seed 0 (seedSizeBytes P) ;;
  a <- match aux with Some a => slice a 0 (andSizeBytes P) | None => Ok [] end ;;
  sl <- slice salt 0 (saltSizeBytes P) ;;
  Ok (hash E P HASH_PREFIX_NONE [s; a; sl; intLE t; intLE j] (digestSizeBytes P)).

(** picnic3_impl.c:230-240 [commit_h]. *)
Definition commit_h (C : list bytes) : res bytes :=
  l <- mapM_seq (numMPCParties P) 0 (fun i => c <- rd C i ;; slice c 0 (digestSizeBytes P)) ;;
  Ok (hash E P HASH_PREFIX_NONE l (digestSizeBytes P)).

(** picnic3_impl.c:243-255 [commit_v]. *)
Definition commit_v (input : bytes) (ms : msgs_t) : res bytes :=
  i <- slice input 0 (stateSizeBytes P) ;;
  l <- mapM_seq (numMPCParties P) 0
         (fun i => m <- rd (ms_msgs ms) i ;; slice m 0 (numBytes (ms_pos ms))) ;;
  Ok (hash E P HASH_PREFIX_NONE (i :: l) (digestSizeBytes P)).

(** picnic3_impl.c:257-264 [wordToMsgs]. *)
Definition wordToMsgs (w : N) (ms : msgs_t) : res msgs_t :=
  m <- for_loop (numMPCParties P) 0
         (fun i msgs =>
            w_i <- getBit (w16_bytes w) i ;;
            m <- rd msgs i ;;
            m <- setBit m (ms_pos ms) w_i ;;
            wr msgs i m) (ms_msgs ms) ;;
  Ok (mkMsgs m (S (ms_pos ms)) (ms_unopened ms)).

(** picnic3_impl.c:266-279 [mpc_AND]. *)
Definition p3_mpc_AND (a b : bool) (mask_a mask_b : N) (tp : tapes_t) (ms : msgs_t)
  : res (bool * tapes_t * msgs_t) :=
  '(and_helper, tp) <- tapesToWord tp ;;
  let s_shares := N.lxor (N.lxor (N.land (extend a) mask_b) (N.land (extend b) mask_a))
                         and_helper in
  s_shares <- match ms_unopened ms with
              | Some u =>
                  m <- rd (ms_msgs ms) u ;;
                  bit <- getBit m (ms_pos ms) ;;
                  s <- setBit (w16_bytes s_shares) u bit ;;
                  bytes_w16 s
              | None => Ok s_shares
              end ;;
  ms <- wordToMsgs s_shares ms ;;
  Ok (xorb (parity16 s_shares) (a && b), tp, ms).

(** picnic3_impl.c:281-305 [mpc_sbox]; [k] is [i/3]. *)
Definition p3_mpc_sbox (state : bytes) (state_masks : list N) (tp : tapes_t) (ms : msgs_t)
  : res (bytes * tapes_t * msgs_t) :=
  for_loop (numSboxes P) 0
    (fun k '(state, tp, ms) =>
       let i := 3 * k in
       a <- getBit state (i + 2) ;;
       mask_a <- rd state_masks (i + 2) ;;
       b <- getBit state (i + 1) ;;
       mask_b <- rd state_masks (i + 1) ;;
       c <- getBit state i ;;
       mask_c <- rd state_masks i ;;
       '(ab, tp, ms) <- p3_mpc_AND a b mask_a mask_b tp ms ;;
       '(bc, tp, ms) <- p3_mpc_AND b c mask_b mask_c tp ms ;;
       '(ca, tp, ms) <- p3_mpc_AND c a mask_c mask_a tp ms ;;
       state <- setBit state (i + 2) (xorb a bc) ;;
       state <- setBit state (i + 1) (xorb (xorb a b) ca) ;;
       state <- setBit state i (xorb (xorb (xorb a b) c) ab) ;;
       Ok (state, tp, ms)) (state, tp, ms).

(** picnic3_impl.c:357-368 [getAuxBits]; the running position [pos] is [n*j + i]. *)
Definition getAuxBits (output : bytes) (tp : tapes_t) : res bytes :=
  let n := stateSizeBits P in
  tl <- rd (tp_tape tp) (numMPCParties P - 1) ;;
  for_loop (numRounds P) 0
    (fun j output =>
       for_loop n 0
         (fun i output =>
            b <- getBit tl (n + n * 2 * j + i) ;;
            setBit output (n * j + i) b) output) output.

(** picnic3_impl.c:370-381 [setAuxBits]. *)
Definition setAuxBits (tp : tapes_t) (input : bytes) : res tapes_t :=
  let n := stateSizeBits P in
  let last := numMPCParties P - 1 in
  tl <- rd (tp_tape tp) last ;;
  tl <- for_loop (numRounds P) 0
          (fun j tl =>
             for_loop n 0
               (fun i tl =>
                  b <- getBit input (n * j + i) ;;
                  setBit tl (n + n * 2 * j + i) b) tl) tl ;;
  tape <- wr (tp_tape tp) last tl ;;
  Ok (mkTapes tape (tp_pos tp)).

(** picnic3_impl.c:383-414 [simulateOnline]; the boolean is [return 0]; the messages are
    returned in both cases. *)
Definition simulateOnline (maskedKey : bytes) (tp : tapes_t) (ms : msgs_t)
           (plaintext pubKey : bytes) : res (bool * msgs_t) :=
  let W := stateSizeWords P in
  let roundKey := zeros LOWMC_MAX_STATE_BYTES in
  let state := zeros LOWMC_MAX_STATE_BYTES in
  roundKey <- matrix_mul E P roundKey maskedKey (KMatrix E P 0) ;;
  state <- xor_array state roundKey plaintext W ;;
  '(state, _, _, ms) <-
    for_loop (numRounds P) 1
      (fun r '(state, roundKey, tp, ms) =>
         '(shares, tp) <- tapesToWords (stateSizeBits P) tp ;;
         '(state, tp, ms) <- p3_mpc_sbox state shares tp ms ;;
         state <- matrix_mul E P state state (LMatrix E P (r - 1)) ;;
         state <- xor_array state state (RConstant E P (r - 1)) W ;;
         roundKey <- matrix_mul E P roundKey maskedKey (KMatrix E P r) ;;
         state <- xor_array state roundKey state W ;;
         Ok (state, roundKey, tp, ms)) (state, roundKey, tp, ms) ;;
  ok <- memcmp_eq state pubKey (stateSizeBytes P) ;;
  Ok (ok, ms).

(** picnic3_impl.c:416-434 [bitsToChunks]; [capacity] is the size of the caller's array. *)
Definition bitsToChunks (chunkLenBits : nat) (input : bytes) (inputLen capacity : nat)
  : res (list nat) :=
  _ <- c_assert (chunkLenBits <=? inputLen * 8) ;;
  _ <- guard (0 <? chunkLenBits) ;;
  let chunkCount := inputLen * 8 / chunkLenBits in
  _ <- guard (chunkCount <=? capacity) ;;
  mapM_seq chunkCount 0
    (fun i =>
       for_loop chunkLenBits 0
         (fun j c =>
            b <- getBit input (i * chunkLenBits + j) ;;
            let c := c + (if (b : bool) then 2 ^ j else 0) in
            _ <- c_assert (c <? 2 ^ chunkLenBits) ;;
            Ok c) 0).

(** picnic3_impl.c:436-450 [appendUnique]; the list is the initialised prefix of an array of
    numOpenedRounds entries. *)
Definition appendUnique (l : list nat) (value : nat) : res (list nat) :=
  if contains l value then Ok l
  else _ <- guard (length l <? numOpenedRounds P) ;; Ok (l ++ [value]).

(** picnic3_impl.c:467-474. *)
Fixpoint scan_C (chunks : list nat) (C : list nat) : res (list nat) :=
  match chunks with
  | [] => Ok C
  | x :: rest =>
      C <- (if x <? numMPCRounds P then appendUnique C x else Ok C) ;;
      if length C =? numOpenedRounds P then Ok C else scan_C rest C
  end.

(** picnic3_impl.c:487-495. *)
Fixpoint scan_P (chunks : list nat) (Pl : list nat) : res (list nat) :=
  match chunks with
  | [] => Ok Pl
  | x :: rest =>
      Pl <- (if x <? numMPCParties P
             then _ <- guard (length Pl <? numOpenedRounds P) ;; Ok (Pl ++ [x])
             else Ok Pl) ;;
      if length Pl =? numOpenedRounds P then Ok Pl else scan_P rest Pl
  end.

(** picnic3_impl.c:465-480 and 485-501: the two while loops, with fuel; result: list, hash. *)
Fixpoint expand_loop (fuel bits capacity : nat) (scan : list nat -> list nat -> res (list nat))
         (h : bytes) (l : list nat) : res (list nat * bytes) :=
  if length l <? numOpenedRounds P then
    match fuel with
    | O => NoFuel
    | S fuel' =>
        chunks <- bitsToChunks bits h (digestSizeBytes P) capacity ;;
        l <- scan chunks l ;;
        hh <- slice h 0 (digestSizeBytes P) ;;
        expand_loop fuel' bits capacity scan (hash E P HASH_PREFIX_1 [hh] (digestSizeBytes P)) l
    end
  else Ok (l, h).

(** picnic3_impl.c:453-508 [expandChallengeHash]; [fuel] bounds the passes of each loop. *)
Definition expandChallengeHash (fuel : nat) (challengeHash : bytes) : res (list nat * list nat) :=
  let bitsC := ceil_log2_nat (numMPCRounds P) in
  let bitsP := ceil_log2_nat (numMPCParties P) in
  _ <- guard (0 <? Nat.min bitsC bitsP) ;;
  let capacity := digestSizeBytes P * 8 / Nat.min bitsC bitsP in
  h <- slice challengeHash 0 (digestSizeBytes P) ;;
  _ <- guard (digestSizeBytes P <=? MAX_DIGEST_SIZE) ;;
  '(C, h) <- expand_loop fuel bitsC capacity scan_C h [] ;;
  '(Pl, _) <- expand_loop fuel bitsP capacity scan_P h [] ;;
  Ok (C, Pl).

(** picnic3_impl.c:510-552 [HCP], the hash; the expansion is the separate call above. *)
Definition HCP_hash (Ch : list bytes) (hCv salt pubKey plaintext message : bytes) : res bytes :=
  _ <- c_assert (numOpenedRounds P <? numMPCRounds P) ;;
  l <- mapM_seq (numMPCRounds P) 0 (fun t => c <- rd Ch t ;; slice c 0 (digestSizeBytes P)) ;;
  cv <- slice hCv 0 (digestSizeBytes P) ;;
  sl <- slice salt 0 (saltSizeBytes P) ;;
  ct <- slice pubKey 0 (stateSizeBytes P) ;;
  pt <- slice plaintext 0 (stateSizeBytes P) ;;
  Ok (hash E P HASH_PREFIX_NONE (l ++ [cv; sl; ct; pt; message]) (digestSizeBytes P)).

(** picnic3_impl.c:554-568 [getMissingLeavesList]. *)
Definition getMissingLeavesList (challengeC : list nat) : res (list nat) :=
  let size := numMPCRounds P - numOpenedRounds P in
  let l := filter (fun i => negb (contains challengeC i)) (seq 0 (numMPCRounds P)) in
  _ <- guard (length l <=? size) ;;
  Ok (l ++ repeat 0 (size - length l)).

(** picnic3_impl.c:634-644, 625-629, 778-783: one row of commitments. The row is allocated
    uninitialised. *)
Definition commit_parties (seeds : tree) (salt : bytes) (t n : nat) (skip : option nat)
           (row : list bytes) : res (list bytes) :=
  for_loop n 0
    (fun j row =>
       if match skip with Some u => j =? u | None => false end then Ok row
       else
         leaf <- getLeaf seeds j ;;
         c <- commit leaf None salt t j ;;
         wr row j c) row.

Definition alloc_row (t : nat) : list bytes :=
  repeat (uninit E site_C t (digestSizeBytes P)) (numMPCParties P).

(** The commitments of a round for which all seeds and the aux bits are known: 625-629, 778-783.
    [auxBits] is the buffer shared by all rounds. *)
Definition commit_row (seeds : tree) (tp : tapes_t) (salt : bytes) (t : nat) (auxBits : bytes)
  : res (list bytes * bytes) :=
  let last := numMPCParties P - 1 in
  row <- commit_parties seeds salt t last None (alloc_row t) ;;
  auxBits <- getAuxBits auxBits tp ;;
  leaf <- getLeaf seeds last ;;
  c <- commit leaf (Some auxBits) salt t last ;;
  row <- wr row last c ;;
  Ok (row, auxBits).

(** picnic3_impl.c:634-644. *)
Definition commit_row_open (seeds : tree) (pr : proof2) (salt : bytes) (t unopened : nat)
  : res (list bytes) :=
  let last := numMPCParties P - 1 in
  row <- commit_parties seeds salt t last (Some unopened) (alloc_row t) ;;
  row <- (if negb (last =? unopened) then
            leaf <- getLeaf seeds last ;;
            c <- commit leaf (Some (q_aux pr)) salt t last ;;
            wr row last c
          else Ok row) ;;
  c <- slice (q_C pr) 0 (digestSizeBytes P) ;;
  old <- rd row unopened ;;
  new <- blit old 0 c ;;
  wr row unopened new.

(** sig->challengeP[indexOf(sig->challengeC, t)]. *)
Definition unopened_party (C Pl : list nat) (t : nat) : res nat :=
  i <- indexOf C t ;; rd Pl i.

(** picnic_types.c:290-310 [allocateMsgs]: one entry. *)
Definition allocateMsgs : msgs_t :=
  mkMsgs (repeat (zeros (andSizeBytes P)) (numMPCParties P)) 0 None.

(** picnic3_impl.c:590-611: the seed tree of round [t]. When [reconstructSeeds] fails here the
    code jumps to Exit and frees the uninitialised array [tapes]: undefined behaviour. *)
Definition verify_seeds (sig : signature2) (iSeedsTree : tree) (t : nat) : res tree :=
  if negb (contains (g_challengeC sig) t) then
    leaf <- getLeaf iSeedsTree t ;;
    generateSeeds E P (numMPCParties P) leaf (g_salt sig) t
  else
    tr <- createTree (numMPCParties P) (seedSizeBytes P) ;;
    u <- unopened_party (g_challengeC sig) (g_challengeP sig) t ;;
    pr <- rd_proof (g_proofs sig) t ;;
    r <- reconstructSeeds E P tr [u] (q_seedInfo pr) (g_salt sig) t ;;
    match r with None => UB | Some tr => Ok tr end.

(** picnic3_impl.c:616-647: tapes and commitments of round [t]. *)
Definition verify_commit (sig : signature2) (seeds : tree) (t : nat) (auxBits : bytes)
  : res (tapes_t * list bytes * bytes) :=
  tp <- createRandomTapes (getLeaves seeds) (g_salt sig) t ;;
  if negb (contains (g_challengeC sig) t) then
    '(tp, _) <- computeAuxTape tp ;;
    '(row, auxBits) <- commit_row seeds tp (g_salt sig) t auxBits ;;
    Ok (tp, row, auxBits)
  else
    u <- unopened_party (g_challengeC sig) (g_challengeP sig) t ;;
    pr <- rd_proof (g_proofs sig) t ;;
    row <- commit_row_open seeds pr (g_salt sig) t u ;;
    Ok (tp, row, auxBits).

(** A loop over the rounds that threads the aux buffer. *)
Fixpoint mapM_aux {A : Type} (n t : nat) (f : nat -> bytes -> res (A * bytes)) (auxBits : bytes)
  : res (list A) :=
  match n with
  | O => Ok []
  | S n' =>
      '(x, auxBits) <- f t auxBits ;;
      xs <- mapM_aux n' (S t) f auxBits ;;
      Ok (x :: xs)
  end.

(** picnic3_impl.c:659-682: the view commitment of round [t]; outer [None]: simulation failed;
    inner [None]: the pointer is set to NULL. *)
Definition verify_view (sig : signature2) (tp : tapes_t) (pubKey plaintext : bytes) (t : nat)
  : res (option (option bytes)) :=
  let last := numMPCParties P - 1 in
  if contains (g_challengeC sig) t then
    u <- unopened_party (g_challengeC sig) (g_challengeP sig) t ;;
    pr <- rd_proof (g_proofs sig) t ;;
    tp <- (if negb (u =? last) then setAuxBits tp (q_aux pr) else Ok tp) ;;
    tu <- rd (tp_tape tp) u ;;
    tu <- blit tu 0 (zeros p3_tapeSize) ;;
    tape <- wr (tp_tape tp) u tu ;;
    let tp := mkTapes tape (tp_pos tp) in
    let ms := allocateMsgs in
    m <- slice (q_msgs pr) 0 (andSizeBytes P) ;;
    mu <- rd (ms_msgs ms) u ;;
    mu <- blit mu 0 m ;;
    msgs <- wr (ms_msgs ms) u mu ;;
    '(ok, ms) <- simulateOnline (q_input pr) tp (mkMsgs msgs 0 (Some u)) plaintext pubKey ;;
    if (ok : bool) then c <- commit_v (q_input pr) ms ;; Ok (Some (Some c))
    else Ok None
  else Ok (Some None).

(** The loop 658-683 with its early exit. *)
Fixpoint verify_views (n t : nat) (sig : signature2) (tapes : list tapes_t)
         (pubKey plaintext : bytes) : res (option (list (option bytes))) :=
  match n with
  | O => Ok (Some [])
  | S n' =>
      tp <- rd tapes t ;;
      r <- verify_view sig tp pubKey plaintext t ;;
      match r with
      | None => Ok None
      | Some c =>
          rest <- verify_views n' (S t) sig tapes pubKey plaintext ;;
          match rest with
          | None => Ok None
          | Some l => Ok (Some (c :: l))
          end
      end
  end.

(** picnic3_impl.c:570-729 [verify_picnic3]; [true] is EXIT_SUCCESS. *)
Definition verify_picnic3 (sig : signature2) (pubKey plaintext message : bytes) : res bool :=
  let T := numMPCRounds P in
  treeCv <- createTree T (digestSizeBytes P) ;;
  iSeedsTree <- createTree T (seedSizeBytes P) ;;
  r <- reconstructSeeds E P iSeedsTree (g_challengeC sig) (g_iSeedInfo sig) (g_salt sig) 0 ;;
  match r with
  | None => UB   (* goto Exit: freeRandomTape on uninitialised memory *)
  | Some iSeedsTree =>
      seeds <- mapM_seq T 0 (verify_seeds sig iSeedsTree) ;;
      tc <- mapM_aux T 0
              (fun t auxBits =>
                 s <- rd seeds t ;;
                 '(tp, row, auxBits) <- verify_commit sig s t auxBits ;;
                 Ok ((tp, row), auxBits)) (zeros MAX_AUX_BYTES) ;;
      Ch <- mapM_seq T 0 (fun t => '(_, row) <- rd tc t ;; commit_h row) ;;
      cv <- verify_views T 0 sig (map fst tc) pubKey plaintext ;;
      match cv with
      | None => Ok false
      | Some Cv =>
          missing <- getMissingLeavesList (g_challengeC sig) ;;
          r <- addMerkleNodes treeCv missing (g_cvInfo sig) ;;
          match r with
          | None => Ok false
          | Some treeCv =>
              r <- verifyMerkleTree E P treeCv Cv (g_salt sig) ;;
              match r with
              | None => Ok false
              | Some treeCv =>
                  root <- rd (t_nodes treeCv) 0 ;;
                  h <- HCP_hash Ch root (g_salt sig) pubKey plaintext message ;;
                  memcmp_eq (g_challengeHash sig) h (digestSizeBytes P)
              end
          end
      end
  end.

(** ** Signing *)

(** picnic3_impl.c:731-744 [computeSaltAndRootSeed]. *)
Definition computeSaltAndRootSeed (len : nat) (privateKey pubKey plaintext message : bytes)
  : res bytes :=
  sk <- slice privateKey 0 (stateSizeBytes P) ;;
  ct <- slice pubKey 0 (stateSizeBytes P) ;;
  pt <- slice plaintext 0 (stateSizeBytes P) ;;
  Ok (hash E P HASH_PREFIX_NONE [sk; message; ct; pt; intLE (stateSizeBits P)] len).

(** picnic3_impl.c:764-765, 772: seeds, tapes and masked input of round [t];
    picnic_types.c:269-283 [allocateInputs] zeroes stateSizeWords words. *)
Record p3_round : Type := mkP3Round {
  pr_seeds : tree;
  pr_tapes : tapes_t;
  pr_input : bytes
}.

Definition p3_preprocess (iSeeds : list bytes) (salt : bytes) (t : nat) : res p3_round :=
  iSeed <- rd iSeeds t ;;
  seeds <- generateSeeds E P (numMPCParties P) iSeed salt t ;;
  tp <- createRandomTapes (getLeaves seeds) salt t ;;
  '(tp, key) <- computeAuxTape tp ;;
  input <- blit (zeros (4 * stateSizeWords P)) 0 key ;;
  Ok (mkP3Round seeds tp input).

(** picnic3_impl.c:789-799: online phase of round [t], masked key and messages; [None]: failure. *)
Definition p3_online (r : p3_round) (privateKey pubKey plaintext : bytes)
  : res (option (bytes * msgs_t)) :=
  maskedKey <- xor_array (pr_input r) (pr_input r) privateKey (stateSizeWords P) ;;
  '(ok, ms) <- simulateOnline maskedKey (pr_tapes r) allocateMsgs plaintext pubKey ;;
  if (ok : bool) then Ok (Some (maskedKey, ms)) else Ok None.

Fixpoint p3_onlines (rounds : list p3_round) (privateKey pubKey plaintext : bytes)
  : res (option (list (bytes * msgs_t))) :=
  match rounds with
  | [] => Ok (Some [])
  | r :: rest =>
      o <- p3_online r privateKey pubKey plaintext ;;
      match o with
      | None => Ok None
      | Some x =>
          l <- p3_onlines rest privateKey pubKey plaintext ;;
          match l with
          | None => Ok None
          | Some xs => Ok (Some (x :: xs))
          end
      end
  end.

(** The result of [revealSeeds] in sign_picnic3; a return of -1 would be used as a length. *)
Definition reveal_or_UB (r : res (option bytes)) : res bytes :=
  o <- r ;; match o with Some b => Ok b | None => UB end.

(** picnic3_impl.c:838-856: the proof of an opened round; picnic_types.c:74-85
    [allocateProof2]: input, aux, msgs zeroed. *)
Definition p3_prove (C Pl : list nat) (t : nat) (r : p3_round) (online : bytes * msgs_t)
           (row : list bytes) : res (option proof2) :=
  if contains C t then
    u <- unopened_party C Pl t ;;
    seedInfo <- reveal_or_UB (revealSeeds P (pr_seeds r) [u]
                                          (numMPCParties P * seedSizeBytes P)) ;;
    aux <- (if negb (u =? numMPCParties P - 1)
            then getAuxBits (zeros (andSizeBytes P)) (pr_tapes r)
            else Ok (zeros (andSizeBytes P))) ;;
    input <- slice (fst online) 0 (stateSizeBytes P) ;;
    m <- rd (ms_msgs (snd online)) u ;;
    msgs <- slice m 0 (andSizeBytes P) ;;
    c <- rd row u ;;
    c <- slice c 0 (digestSizeBytes P) ;;
    Ok (Some (mkProof2 seedInfo aux c input msgs))
  else Ok None.

(** picnic3_impl.c:746-893 [sign_picnic3]; [None]: return -1. *)
Definition sign_picnic3 (fuel : nat) (privateKey pubKey plaintext message : bytes)
  : res (option signature2) :=
  let T := numMPCRounds P in
  saltAndRoot <- computeSaltAndRootSeed (saltSizeBytes P + seedSizeBytes P)
                                        privateKey pubKey plaintext message ;;
  salt <- slice saltAndRoot 0 (saltSizeBytes P) ;;
  root <- slice saltAndRoot (saltSizeBytes P) (seedSizeBytes P) ;;
  iSeedsTree <- generateSeeds E P T root salt 0 ;;
  rounds <- mapM_seq T 0 (p3_preprocess (getLeaves iSeedsTree) salt) ;;
  rows <- mapM_aux T 0
            (fun t auxBits =>
               r <- rd rounds t ;;
               commit_row (pr_seeds r) (pr_tapes r) salt t auxBits) (zeros MAX_AUX_BYTES) ;;
  o <- p3_onlines rounds privateKey pubKey plaintext ;;
  match o with
  | None => Ok None
  | Some onlines =>
      Ch <- mapM_seq T 0 (fun t => row <- rd rows t ;; commit_h row) ;;
      Cv <- mapM_seq T 0 (fun t => '(input, ms) <- rd onlines t ;; commit_v input ms) ;;
      treeCv <- createTree T (digestSizeBytes P) ;;
      treeCv <- buildMerkleTree E P treeCv (map (@Some bytes) Cv) salt ;;
      hCv <- rd (t_nodes treeCv) 0 ;;
      challengeHash <- HCP_hash Ch hCv salt pubKey plaintext message ;;
      '(C, Pl) <- expandChallengeHash fuel challengeHash ;;
      missing <- getMissingLeavesList C ;;
      cvInfo <- openMerkleTree treeCv missing ;;
      iSeedInfo <- reveal_or_UB (revealSeeds P iSeedsTree C (T * seedSizeBytes P)) ;;
      proofs <- mapM_seq T 0
                  (fun t =>
                     r <- rd rounds t ;;
                     on <- rd onlines t ;;
                     row <- rd rows t ;;
                     p3_prove C Pl t r on row) ;;
      Ok (Some (mkSig2 salt iSeedInfo cvInfo challengeHash C Pl proofs))
  end.

(** ** Serialisation *)

(** picnic3_impl.c:930-941, 1006-1017: length of the proof of round [t]. *)
Definition proof2_length (C Pl : list nat) (t seedInfoLen : nat) : res nat :=
  if contains C t then
    u <- unopened_party C Pl t ;;
    Ok ((if negb (u =? numMPCParties P - 1) then andSizeBytes P else 0)
        + seedInfoLen + stateSizeBytes P + andSizeBytes P + digestSizeBytes P)
  else Ok 0.

(** picnic3_impl.c:958-991: read the proof of one round at offset [off]; [None]: padding. *)
Definition deserialize2_round (C Pl : list nat) (seedInfoLen : nat) (sigBytes : bytes)
           (off t : nat) : res (option (option proof2 * nat)) :=
  if contains C t then
    seedInfo <- slice sigBytes off seedInfoLen ;;
    let off := off + seedInfoLen in
    u <- unopened_party C Pl t ;;
    '(aux, off, auxOk) <-
      (if negb (u =? numMPCParties P - 1) then
         aux <- slice sigBytes off (andSizeBytes P) ;;
         ok <- arePaddingBitsZero aux (3 * numRounds P * numSboxes P) ;;
         Ok (aux, off + andSizeBytes P, ok)
       else Ok (zeros (andSizeBytes P), off, true)) ;;
    if negb auxOk then Ok None
    else
      input <- slice sigBytes off (stateSizeBytes P) ;;
      let off := off + stateSizeBytes P in
      msgs <- slice sigBytes off (andSizeBytes P) ;;
      let off := off + andSizeBytes P in
      ok <- arePaddingBitsZero msgs (3 * numRounds P * numSboxes P) ;;
      if negb ok then Ok None
      else
        c <- slice sigBytes off (digestSizeBytes P) ;;
        Ok (Some (Some (mkProof2 seedInfo aux c input msgs), off + digestSizeBytes P))
  else Ok (Some (None, off)).

Fixpoint deserialize2_rounds (n t : nat) (C Pl : list nat) (seedInfoLen : nat) (sigBytes : bytes)
         (off : nat) : res (option (list (option proof2))) :=
  match n with
  | O => Ok (Some [])
  | S n' =>
      r <- deserialize2_round C Pl seedInfoLen sigBytes off t ;;
      match r with
      | None => Ok None
      | Some (p, off) =>
          rest <- deserialize2_rounds n' (S t) C Pl seedInfoLen sigBytes off ;;
          match rest with
          | None => Ok None
          | Some l => Ok (Some (p :: l))
          end
      end
  end.

(** picnic3_impl.c:895-994 [deserializeSignature2]; [None]: failure. [sigBytes] has exactly
    [sigBytesLen] bytes. *)
Definition deserializeSignature2 (fuel : nat) (sigBytes : bytes) : res (option signature2) :=
  let T := numMPCRounds P in
  let head := digestSizeBytes P + saltSizeBytes P in
  if length sigBytes <? head then Ok None
  else
    challengeHash <- slice sigBytes 0 (digestSizeBytes P) ;;
    salt <- slice sigBytes (digestSizeBytes P) (saltSizeBytes P) ;;
    '(C, Pl) <- expandChallengeHash fuel challengeHash ;;
    iSeedInfoLen <- revealSeedsSize P T C ;;
    missing <- getMissingLeavesList C ;;
    cvInfoLen <- openMerkleTreeSize P T missing ;;
    seedInfoLen <- revealSeedsSize P (numMPCParties P) [0] ;;
    lens <- mapM_seq T 0 (fun t => proof2_length C Pl t seedInfoLen) ;;
    let bytesRequired := head + iSeedInfoLen + cvInfoLen + list_sum lens in
    if negb (length sigBytes =? bytesRequired) then Ok None
    else
      iSeedInfo <- slice sigBytes head iSeedInfoLen ;;
      cvInfo <- slice sigBytes (head + iSeedInfoLen) cvInfoLen ;;
      r <- deserialize2_rounds T 0 C Pl seedInfoLen sigBytes (head + iSeedInfoLen + cvInfoLen) ;;
      match r with
      | None => Ok None
      | Some proofs => Ok (Some (mkSig2 salt iSeedInfo cvInfo challengeHash C Pl proofs))
      end.

(** picnic3_impl.c:1035-1055: the bytes of the proof of round [t]. *)
Definition serialize2_round (sig : signature2) (t : nat) : res bytes :=
  if contains (g_challengeC sig) t then
    pr <- rd_proof (g_proofs sig) t ;;
    u <- unopened_party (g_challengeC sig) (g_challengeP sig) t ;;
    aux <- (if negb (u =? numMPCParties P - 1) then slice (q_aux pr) 0 (andSizeBytes P)
            else Ok []) ;;
    input <- slice (q_input pr) 0 (stateSizeBytes P) ;;
    msgs <- slice (q_msgs pr) 0 (andSizeBytes P) ;;
    c <- slice (q_C pr) 0 (digestSizeBytes P) ;;
    Ok (q_seedInfo pr ++ aux ++ input ++ msgs ++ c)
  else Ok [].

(** picnic3_impl.c:996-1059 [serializeSignature2]; [None]: return -1; otherwise the number of
    bytes written and the new contents of the caller's buffer. The [memcpy] calls to consecutive
    offsets are modelled as one write of the concatenation. *)
Definition serializeSignature2 (sig : signature2) (sigBytes : bytes) (sigBytesLen : nat)
  : res (option (nat * bytes)) :=
  let T := numMPCRounds P in
  lens <- mapM_seq T 0
            (fun t =>
               if contains (g_challengeC sig) t then
                 pr <- rd_proof (g_proofs sig) t ;;
                 proof2_length (g_challengeC sig) (g_challengeP sig) t (length (q_seedInfo pr))
               else Ok 0) ;;
  let bytesRequired := digestSizeBytes P + saltSizeBytes P + length (g_iSeedInfo sig)
                       + length (g_cvInfo sig) + list_sum lens in
  if sigBytesLen <? bytesRequired then Ok None
  else
    ch <- slice (g_challengeHash sig) 0 (digestSizeBytes P) ;;
    salt <- slice (g_salt sig) 0 (saltSizeBytes P) ;;
    rounds <- mapM_seq T 0 (serialize2_round sig) ;;
    let out := ch ++ salt ++ g_iSeedInfo sig ++ g_cvInfo sig ++ concat rounds in
    buf <- blit sigBytes 0 out ;;
    Ok (Some (length out, buf)).

End Picnic3.
