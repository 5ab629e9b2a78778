(** ZKB++ signatures (all parameter sets but Picnic3): picnic_impl.c:234-1146. *)

From Coq Require Import List NArith Arith Bool.
From Verif Require Import Base Params Env LowMC.
Import ListNotations.

(** ** Arrays of three (one entry per MPC party) *)
Definition tri (A : Type) : Type := (A * A * A)%type.

(** Element of a 3-array; used only with indices below 3 or reduced modulo 3. *)
Definition tget {A : Type} (t : tri A) (i : nat) : A :=
  let '(a, b, c) := t in
  match i with O => a | S O => b | _ => c end.

(** Element of a 3-array at an index that is not statically known to be in range. *)
Definition tri_rd {A : Type} (t : tri A) (i : nat) : res A :=
  if i <? 3 then Ok (tget t i) else UB.

Definition tri_wr {A : Type} (t : tri A) (i : nat) (x : A) : res (tri A) :=
  let '(a, b, c) := t in
  match i with
  | 0 => Ok (x, b, c)
  | 1 => Ok (a, x, c)
  | 2 => Ok (a, b, x)
  | _ => UB
  end.

(** [for (j = 0; j < 3; j++) out[j] = f(j)]. *)
Definition triM {A : Type} (f : nat -> res A) : res (tri A) :=
  a <- f 0 ;; b <- f 1 ;; c <- f 2 ;; Ok (a, b, c).

Definition duo (A : Type) : Type := (A * A)%type.
Definition dget {A : Type} (t : duo A) (i : nat) : A :=
  match i with O => fst t | _ => snd t end.
Definition duoM {A : Type} (f : nat -> res A) : res (duo A) :=
  a <- f 0 ;; b <- f 1 ;; Ok (a, b).

(** picnic_types.h:26-30 [view_t]. *)
Record view : Type := mkView {
  v_inputShare : bytes;
  v_communicatedBits : bytes;
  v_outputShare : bytes
}.

(** picnic_impl.h [proof_t]. *)
Record proof : Type := mkProof {
  p_seed1 : bytes;
  p_seed2 : bytes;
  p_inputShare : bytes;
  p_communicatedBits : bytes;
  p_view3Commitment : bytes;
  p_view3UnruhG : bytes
}.

(** picnic_impl.h [signature_t]. *)
Record signature : Type := mkSig {
  s_proofs : list proof;
  s_challengeBits : bytes;
  s_salt : bytes
}.

(** Sites of uninitialised memory. *)
Definition site_sign_tmp : nat := 10.
Definition site_sign_tape : nat := 11.       (* tape 0; 12, 13: tapes 1, 2 *)
Definition site_G : nat := 14.               (* 14, 15, 16: G[0..2] *)
Definition site_challengeBits : nat := 17.
Definition site_verify_tmp : nat := 18.
Definition site_verify_tape : nat := 19.     (* 19, 20 *)
Definition site_verify_G : nat := 21.        (* 21, 22, 23 *)
Definition site_computed_challengebits : nat := 24.
Definition site_proof : nat := 25.           (* 25..30: the six buffers of a proof_t *)
Definition site_verify_challenge : nat := 31.
Definition site_vproof : nat := 32.          (* 32..37: the buffers of a proof_t when verifying *)

Section Picnic1.
Variable E : env.
Variable P : paramset.

(** picnic_types.c:48-51 [getTapeSizeBytes]. *)
Definition getTapeSizeBytes : nat := 2 * andSizeBytes P.

(** picnic_impl.c:234-261 [createRandomTape]: fills the first [tapeLengthBytes] bytes of
    [buf]; the boolean is the C return value. *)
Definition createRandomTape (seed salt : bytes) (roundNumber playerNumber : nat)
           (buf : bytes) (tapeLengthBytes : nat) : res (bool * bytes) :=
  if tapeLengthBytes <? digestSizeBytes P then Ok (false, buf)
  else
    seed <- slice seed 0 (seedSizeBytes P) ;;
    let h := hash E P HASH_PREFIX_2 [seed] (digestSizeBytes P) in
    buf <- blit buf 0 h ;;
    salt <- slice salt 0 (saltSizeBytes P) ;;
    let t := hash E P HASH_PREFIX_NONE
                  [h; salt; intLE roundNumber; intLE playerNumber; intLE tapeLengthBytes]
                  tapeLengthBytes in
    buf <- blit buf 0 t ;;
    Ok (true, buf).

(** picnic_impl.c:263-268 [mpc_xor] with players = 3 and 2. *)
Definition mpc_xor3 (state inp : tri bytes) (len : nat) : res (tri bytes) :=
  triM (fun i => xor_array (tget state i) (tget state i) (tget inp i) len).
Definition mpc_xor2 (state inp : duo bytes) (len : nat) : res (duo bytes) :=
  duoM (fun i => xor_array (dget state i) (dget state i) (dget inp i) len).

(** picnic_impl.c:271-274 [mpc_xor_constant]. *)
Definition mpc_xor_constant (state : tri bytes) (inp : bytes) (len : nat) : res (tri bytes) :=
  let '(s0, s1, s2) := state in
  s0' <- xor_array s0 s0 inp len ;;
  Ok (s0', s1, s2).

(** picnic_impl.c:276-285 [mpc_xor_constant_verify]. *)
Definition mpc_xor_constant_verify (state : duo bytes) (inp : bytes) (len challenge : nat)
  : res (duo bytes) :=
  let '(s0, s1) := state in
  if challenge =? 0 then
    s0' <- xor_array s0 s0 inp len ;; Ok (s0', s1)
  else if challenge =? 2 then
    s1' <- xor_array s1 s1 inp len ;; Ok (s0, s1')
  else Ok (s0, s1).

(** picnic_impl.c:288-307 [Commit]; returns the digest. *)
Definition Commit (seed : bytes) (v : view) : res bytes :=
  seed <- slice seed 0 (seedSizeBytes P) ;;
  let h := hash E P HASH_PREFIX_4 [seed] (digestSizeBytes P) in
  i <- slice (v_inputShare v) 0 (stateSizeBytes P) ;;
  c <- slice (v_communicatedBits v) 0 (andSizeBytes P) ;;
  o <- slice (v_outputShare v) 0 (stateSizeBytes P) ;;
  Ok (hash E P HASH_PREFIX_0 [h; i; c; o] (digestSizeBytes P)).

(** picnic_impl.c:310-334 [G]; [output] is the destination buffer. *)
Definition G (viewNumber : nat) (seed : bytes) (v : view) (output : bytes) : res bytes :=
  let outputBytes := seedSizeBytes P + andSizeBytes P
                     + (if viewNumber =? 2 then stateSizeBytes P else 0) in
  seed <- slice seed 0 (seedSizeBytes P) ;;
  let h := hash E P HASH_PREFIX_5 [seed] (digestSizeBytes P) in
  output <- blit output 0 h ;;
  i <- (if viewNumber =? 2 then slice (v_inputShare v) 0 (stateSizeBytes P) else Ok []) ;;
  c <- slice (v_communicatedBits v) 0 (andSizeBytes P) ;;
  blit output 0 (hash E P HASH_PREFIX_NONE [h; i; c; intLE outputBytes] outputBytes).

(** picnic_impl.c:336-345 [setChallenge]. *)
Definition setChallenge (challenge : bytes) (round : nat) (trit : N) : res bytes :=
  challenge <- setBit challenge (2 * round) (N.eqb (N.land trit 1) 1) ;;
  setBit challenge (2 * round + 1) (N.eqb (N.land (N.shiftr trit 1) 1) 1).

(** picnic_impl.c:347-352 [getChallenge]. *)
Definition getChallenge (challenge : bytes) (round : nat) : res nat :=
  b1 <- getBit challenge (2 * round + 1) ;;
  b0 <- getBit challenge (2 * round) ;;
  Ok ((if (b1 : bool) then 2 else 0) + (if (b0 : bool) then 1 else 0)).

(** picnic_impl.c:406-410: the sequence of bit pairs of the digest, in the order of the two
    nested for loops. *)
Definition byte_pairs (b : N) : list N :=
  [N.land (N.shiftr b 6) 3; N.land (N.shiftr b 4) 3; N.land (N.shiftr b 2) 3; N.land b 3].
Definition bit_pairs (h : bytes) : list N := flat_map byte_pairs h.

(** picnic_impl.c:406-419: one pass over the digest; the boolean tells whether [goto done]
    was taken. *)
Fixpoint H3_scan (pairs : list N) (chal : bytes) (round : nat) : res (bytes * nat * bool) :=
  match pairs with
  | [] => Ok (chal, round, false)
  | p :: ps =>
      if N.ltb p 3 then
        chal <- setChallenge chal round p ;;
        if S round =? numMPCRounds P then Ok (chal, S round, true)
        else H3_scan ps chal (S round)
      else H3_scan ps chal round
  end.

(** picnic_impl.c:405-426: the unbounded loop, with fuel. *)
Fixpoint H3_loop (fuel : nat) (h : bytes) (chal : bytes) (round : nat) : res bytes :=
  match fuel with
  | O => NoFuel
  | S fuel' =>
      '(chal, round, done) <- H3_scan (bit_pairs h) chal round ;;
      if (done : bool) then Ok chal
      else H3_loop fuel' (hash E P HASH_PREFIX_1 [h] (digestSizeBytes P)) chal round
  end.

(** Read [len] bytes from each element of a 3-array and append them. *)
Definition tri_chunks (len : nat) (t : tri bytes) : res bytes :=
  let '(a, b, c) := t in
  a <- slice a 0 len ;; b <- slice b 0 len ;; c <- slice c 0 len ;; Ok (a ++ b ++ c).

(** picnic_impl.c:383-390: G commitments of one round. *)
Definition G_chunks (t : tri bytes) : res bytes :=
  let '(a, b, c) := t in
  a <- slice a 0 (UnruhGWithoutInputBytes P) ;;
  b <- slice b 0 (UnruhGWithoutInputBytes P) ;;
  c <- slice c 0 (UnruhGWithInputBytes P) ;;
  Ok (a ++ b ++ c).

(** picnic_impl.c:354-432 [H3]. [chal] is the caller's challenge buffer (uninitialised). *)
Definition H3_input (circuitOutput plaintext : bytes) (viewOutputs ascm : list (tri bytes))
           (salt message : bytes) (gs : list (tri bytes)) : res (list bytes) :=
  vo <- mapM_seq (numMPCRounds P) 0
          (fun i => t <- rd viewOutputs i ;; tri_chunks (stateSizeBytes P) t) ;;
  co <- mapM_seq (numMPCRounds P) 0
          (fun i => t <- rd ascm i ;; tri_chunks (digestSizeBytes P) t) ;;
  gc <- (if is_UR (transf P)
         then mapM_seq (numMPCRounds P) 0 (fun i => t <- rd gs i ;; G_chunks t)
         else Ok []) ;;
  ct <- slice circuitOutput 0 (stateSizeBytes P) ;;
  pt <- slice plaintext 0 (stateSizeBytes P) ;;
  sl <- slice salt 0 (saltSizeBytes P) ;;
  Ok (vo ++ co ++ gc ++ [ct; pt; sl; message]).

Definition H3 (fuel : nat) (circuitOutput plaintext : bytes) (viewOutputs ascm : list (tri bytes))
           (chal salt message : bytes) (gs : list (tri bytes)) : res bytes :=
  chal <- wr chal (numBytes (numMPCRounds P * 2) - 1) 0%N ;;
  inp <- H3_input circuitOutput plaintext viewOutputs ascm salt message gs ;;
  H3_loop fuel (hash E P HASH_PREFIX_1 inp (digestSizeBytes P)) chal 0.

(** picnic_types.c:95-108 [allocateProof]: uninitialised buffers. *)
Definition allocateProof (site k : nat) : proof :=
  mkProof (uninit E site k (seedSizeBytes P))
          (uninit E (site + 1) k (seedSizeBytes P))
          (uninit E (site + 2) k (stateSizeBytes P))
          (uninit E (site + 3) k (andSizeBytes P))
          (uninit E (site + 4) k (digestSizeBytes P))
          (uninit E (site + 5) k (UnruhGWithInputBytes P)).

(** picnic_impl.c:435-464 [prove]. *)
Definition prove (pr : proof) (challenge : nat) (seeds : tri bytes) (views : tri view)
           (commitments gs : tri bytes) : res proof :=
  '(i1, i2) <- match challenge with
               | 0 => Ok (0, 1)
               | 1 => Ok (1, 2)
               | 2 => Ok (2, 0)
               | _ => Abort
               end ;;
  s1 <- slice (tget seeds i1) 0 (seedSizeBytes P) ;;
  seed1 <- blit (p_seed1 pr) 0 s1 ;;
  s2 <- slice (tget seeds i2) 0 (seedSizeBytes P) ;;
  seed2 <- blit (p_seed2 pr) 0 s2 ;;
  inputShare <- (if (challenge =? 1) || (challenge =? 2)
                 then i <- slice (v_inputShare (tget views 2)) 0 (stateSizeBytes P) ;;
                      blit (p_inputShare pr) 0 i
                 else Ok (p_inputShare pr)) ;;
  c <- slice (v_communicatedBits (tget views ((challenge + 1) mod 3))) 0 (andSizeBytes P) ;;
  comm <- blit (p_communicatedBits pr) 0 c ;;
  h <- slice (tget commitments ((challenge + 2) mod 3)) 0 (digestSizeBytes P) ;;
  v3c <- blit (p_view3Commitment pr) 0 h ;;
  v3g <- (if is_UR (transf P) then
            let len := if challenge =? 0 then UnruhGWithInputBytes P
                       else UnruhGWithoutInputBytes P in
            g <- slice (tget gs ((challenge + 2) mod 3)) 0 len ;;
            blit (p_view3UnruhG pr) 0 g
          else Ok (p_view3UnruhG pr)) ;;
  Ok (mkProof seed1 seed2 inputShare comm v3c v3g).

(** ** Verification *)

(** picnic_impl.c:466-476 [mpc_AND_verify]; result: out, communicatedBits of view1, pos. *)
Definition mpc_AND_verify (in1 in2 : duo bool) (tape : duo bytes) (comm1 comm2 : bytes) (pos : nat)
  : res (duo bool * bytes * nat) :=
  r0 <- getBit (dget tape 0) pos ;;
  r1 <- getBit (dget tape 1) pos ;;
  let out0 := xorb (xorb (xorb (xorb (dget in1 0 && dget in2 1) (dget in1 1 && dget in2 0))
                               (dget in1 0 && dget in2 0)) r0) r1 in
  comm1 <- setBit comm1 pos out0 ;;
  out1 <- getBit comm2 pos ;;
  Ok ((out0, out1), comm1, S pos).

(** picnic_impl.c:501-505 / 744-748: S-box output of one share. *)
Definition sbox_write (state : bytes) (i : nat) (a b c ab bc ca : bool) : res bytes :=
  state <- setBit state (i + 2) (xorb a bc) ;;
  state <- setBit state (i + 1) (xorb (xorb a b) ca) ;;
  setBit state i (xorb (xorb (xorb a b) c) ab).

(** picnic_impl.c:478-507 [mpc_substitution_verify]. *)
Definition mpc_substitution_verify (state : duo bytes) (tape : duo bytes) (comm1 comm2 : bytes)
           (pos : nat) : res (duo bytes * bytes * nat) :=
  for_loop (numSboxes P) 0
    (fun k '(state, comm1, pos) =>
       let i := 3 * k in
       a <- duoM (fun j => getBit (dget state j) (i + 2)) ;;
       b <- duoM (fun j => getBit (dget state j) (i + 1)) ;;
       c <- duoM (fun j => getBit (dget state j) i) ;;
       '(ab, comm1, pos) <- mpc_AND_verify a b tape comm1 comm2 pos ;;
       '(bc, comm1, pos) <- mpc_AND_verify b c tape comm1 comm2 pos ;;
       '(ca, comm1, pos) <- mpc_AND_verify c a tape comm1 comm2 pos ;;
       state <- duoM (fun j => sbox_write (dget state j) i (dget a j) (dget b j) (dget c j)
                                          (dget ab j) (dget bc j) (dget ca j)) ;;
       Ok (state, comm1, pos)) (state, comm1, pos).

(** picnic_impl.c:509-515 [mpc_matrix_mul]. *)
Definition mpc_matrix_mul3 (output state : tri bytes) (matrix : bytes) : res (tri bytes) :=
  triM (fun i => matrix_mul E P (tget output i) (tget state i) matrix).
Definition mpc_matrix_mul2 (output state : duo bytes) (matrix : bytes) : res (duo bytes) :=
  duoM (fun i => matrix_mul E P (dget output i) (dget state i) matrix).

(** One block of the scratch area: [stateSizeWords] zeroed words. *)
Definition zero_words : bytes := zeros (4 * stateSizeWords P).

(** picnic_impl.c:517-549 [mpc_LowMC_verify]; [tmpSize] is the size of the scratch buffer, the
    four word arrays carved out of it are disjoint and modelled as separate buffers. Result:
    communicatedBits of view1, output shares of both views. *)
Definition mpc_LowMC_verify (view1 view2 : view) (tape : duo bytes) (tmpSize : nat)
           (plaintext : bytes) (challenge : nat) : res (view * view) :=
  let W := stateSizeWords P in
  _ <- guard (4 * W * 4 <=? tmpSize) ;;
  let roundKey := (zero_words, zero_words) in
  let keyShares := (v_inputShare view1, v_inputShare view2) in
  state <- mpc_xor_constant_verify (zero_words, zero_words) plaintext W challenge ;;
  roundKey <- mpc_matrix_mul2 roundKey keyShares (KMatrix E P 0) ;;
  state <- mpc_xor2 state roundKey W ;;
  '(state, _, comm1, _) <-
    for_loop (numRounds P) 1
      (fun r '(state, roundKey, comm1, pos) =>
         roundKey <- mpc_matrix_mul2 roundKey keyShares (KMatrix E P r) ;;
         '(state, comm1, pos) <-
            mpc_substitution_verify state tape comm1 (v_communicatedBits view2) pos ;;
         state <- mpc_matrix_mul2 state state (LMatrix E P (r - 1)) ;;
         state <- mpc_xor_constant_verify state (RConstant E P (r - 1)) W challenge ;;
         state <- mpc_xor2 state roundKey W ;;
         Ok (state, roundKey, comm1, pos))
      (state, roundKey, v_communicatedBits view1, 0) ;;
  o1 <- slice (dget state 0) 0 (stateSizeBytes P) ;;
  out1 <- blit (v_outputShare view1) 0 o1 ;;
  o2 <- slice (dget state 1) 0 (stateSizeBytes P) ;;
  out2 <- blit (v_outputShare view2) 0 o2 ;;
  Ok (mkView (v_inputShare view1) comm1 out1,
      mkView (v_inputShare view2) (v_communicatedBits view2) out2).

(** memcpy(dst, src + off, len) between buffers. *)
Definition copy (dst src : bytes) (off len : nat) : res bytes :=
  s <- slice src off len ;; blit dst 0 s.

(** picnic_impl.c:551-616 [verifyProof]. [view1], [view2] are freshly allocated (zeroed);
    [tmp] is the scratch buffer and [tape] the two used tapes, both with arbitrary contents
    (they are re-used between rounds). *)
Definition verifyProof (pr : proof) (view1 view2 : view) (challenge : nat) (salt : bytes)
           (roundNumber : nat) (tmp : bytes) (plaintext : bytes) (tape : duo bytes)
  : res (view * view) :=
  let sB := stateSizeBytes P in
  let aB := andSizeBytes P in
  comm2 <- copy (v_communicatedBits view2) (p_communicatedBits pr) 0 aB ;;
  '(in1, in2, tape0, tape1) <-
    match challenge with
    | 0 =>
        '(status, tmp) <- createRandomTape (p_seed1 pr) salt roundNumber 0 tmp (sB + aB) ;;
        in1 <- copy (v_inputShare view1) tmp 0 sB ;;
        tape0 <- copy (dget tape 0) tmp sB aB ;;
        if (status : bool) then
          '(status, tmp) <- createRandomTape (p_seed2 pr) salt roundNumber 1 tmp (sB + aB) ;;
          if (status : bool) then
            in2 <- copy (v_inputShare view2) tmp 0 sB ;;
            tape1 <- copy (dget tape 1) tmp sB aB ;;
            Ok (in1, in2, tape0, tape1)
          else Ok (in1, v_inputShare view2, tape0, dget tape 1)
        else Ok (in1, v_inputShare view2, tape0, dget tape 1)
    | 1 =>
        '(status, tmp) <- createRandomTape (p_seed1 pr) salt roundNumber 1 tmp (sB + aB) ;;
        in1 <- copy (v_inputShare view1) tmp 0 sB ;;
        tape0 <- copy (dget tape 0) tmp sB aB ;;
        if (status : bool) then
          '(status, tape1) <- createRandomTape (p_seed2 pr) salt roundNumber 2 (dget tape 1) aB ;;
          if (status : bool) then
            in2 <- copy (v_inputShare view2) (p_inputShare pr) 0 sB ;;
            Ok (in1, in2, tape0, tape1)
          else Ok (in1, v_inputShare view2, tape0, tape1)
        else Ok (in1, v_inputShare view2, tape0, dget tape 1)
    | 2 =>
        '(status, tape0) <- createRandomTape (p_seed1 pr) salt roundNumber 2 (dget tape 0) aB ;;
        in1 <- copy (v_inputShare view1) (p_inputShare pr) 0 sB ;;
        if (status : bool) then
          '(status, tmp) <- createRandomTape (p_seed2 pr) salt roundNumber 0 tmp (sB + aB) ;;
          if (status : bool) then
            in2 <- copy (v_inputShare view2) tmp 0 sB ;;
            tape1 <- copy (dget tape 1) tmp sB aB ;;
            Ok (in1, in2, tape0, tape1)
          else Ok (in1, v_inputShare view2, tape0, dget tape 1)
        else Ok (in1, v_inputShare view2, tape0, dget tape 1)
    | _ => Ok (v_inputShare view1, v_inputShare view2, dget tape 0, dget tape 1)
    end ;;
  in1 <- zeroTrailingBits in1 (stateSizeBits P) ;;
  in2 <- zeroTrailingBits in2 (stateSizeBits P) ;;
  mpc_LowMC_verify (mkView in1 (v_communicatedBits view1) (v_outputShare view1))
                   (mkView in2 comm2 (v_outputShare view2))
                   (tape0, tape1) (length tmp) plaintext challenge.

(** picnic_types.c:34-39 [allocateView] (calloc). *)
Definition allocateView : view :=
  mkView (zeros (stateSizeBytes P)) (zeros (andSizeBytes P)) (zeros (stateSizeBytes P)).

(** picnic_impl.c:645-672: one iteration of the loop of [verify]: the three output shares, the
    three commitments and the three G values, in party order. *)
Definition verify_round (i : nat) (pr : proof) (chal salt : bytes) (pubKey plaintext : bytes)
  : res (tri bytes * tri bytes * tri bytes) :=
  let sB := stateSizeBytes P in
  let tmp := uninit E site_verify_tmp i (Nat.max (6 * sB) (sB + andSizeBytes P)) in
  let tape := (uninit E site_verify_tape i getTapeSizeBytes,
               uninit E (site_verify_tape + 1) i getTapeSizeBytes) in
  challenge <- getChallenge chal i ;;
  '(view1, view2) <- verifyProof pr allocateView allocateView challenge salt i tmp plaintext tape ;;
  c1 <- Commit (p_seed1 pr) view1 ;;
  c2 <- Commit (p_seed2 pr) view2 ;;
  c3 <- slice (p_view3Commitment pr) 0 (digestSizeBytes P) ;;
  ascm <- tri_wr ([], [], []) challenge c1 ;;
  ascm <- tri_wr ascm ((challenge + 1) mod 3) c2 ;;
  ascm <- tri_wr ascm ((challenge + 2) mod 3) c3 ;;
  gs <- (if is_UR (transf P) then
           let g0 := (uninit E site_verify_G i (UnruhGWithInputBytes P),
                      uninit E (site_verify_G + 1) i (UnruhGWithInputBytes P),
                      uninit E (site_verify_G + 2) i (UnruhGWithInputBytes P)) in
           g1 <- G challenge (p_seed1 pr) view1 (tget g0 challenge) ;;
           g2 <- G ((challenge + 1) mod 3) (p_seed2 pr) view2 (tget g0 ((challenge + 1) mod 3)) ;;
           let len := if challenge =? 0 then UnruhGWithInputBytes P
                      else UnruhGWithoutInputBytes P in
           g3 <- copy (tget g0 ((challenge + 2) mod 3)) (p_view3UnruhG pr) 0 len ;;
           gs <- tri_wr g0 challenge g1 ;;
           gs <- tri_wr gs ((challenge + 1) mod 3) g2 ;;
           tri_wr gs ((challenge + 2) mod 3) g3
         else Ok ([], [], [])) ;;
  vo <- tri_wr ([], [], []) challenge (v_outputShare view1) ;;
  vo <- tri_wr vo ((challenge + 1) mod 3) (v_outputShare view2) ;;
  o3 <- xor_three (zeros sB) (v_outputShare view1) (v_outputShare view2) pubKey sB ;;
  vo <- tri_wr vo ((challenge + 2) mod 3) o3 ;;
  Ok (vo, ascm, gs).

(** picnic_impl.c:618-702 [verify]; [true] is EXIT_SUCCESS. *)
Definition verify (fuel : nat) (sig : signature) (pubKey plaintext message : bytes) : res bool :=
  let T := numMPCRounds P in
  rounds <- mapM_seq T 0
              (fun i => pr <- rd (s_proofs sig) i ;;
                        verify_round i pr (s_challengeBits sig) (s_salt sig) pubKey plaintext) ;;
  computed <- H3 fuel pubKey plaintext (map (fun '(vo, _, _) => vo) rounds)
                 (map (fun '(_, cm, _) => cm) rounds)
                 (uninit E site_computed_challengebits 0 (numBytes (2 * T)))
                 (s_salt sig) message (map (fun '(_, _, g) => g) rounds) ;;
  memcmp_eq (s_challengeBits sig) computed (numBytes (2 * T)).

(** ** Signing *)

(** picnic_impl.c:706-719 [mpc_AND]. *)
Definition mpc_AND_out (in1 in2 r : tri bool) (i : nat) : bool :=
  let i' := (i + 1) mod 3 in
  xorb (xorb (xorb (xorb (tget in1 i && tget in2 i') (tget in1 i' && tget in2 i))
                   (tget in1 i && tget in2 i)) (tget r i)) (tget r i').

Definition mpc_AND (in1 in2 : tri bool) (tape : tri bytes) (comm : tri bytes) (pos : nat)
  : res (tri bool * tri bytes * nat) :=
  r <- triM (fun i => getBit (tget tape i) pos) ;;
  comm <- triM (fun i => setBit (tget comm i) pos (mpc_AND_out in1 in2 r i)) ;;
  Ok ((mpc_AND_out in1 in2 r 0, mpc_AND_out in1 in2 r 1, mpc_AND_out in1 in2 r 2), comm, S pos).

(** picnic_impl.c:721-750 [mpc_substitution]. *)
Definition mpc_substitution (state : tri bytes) (tape : tri bytes) (comm : tri bytes) (pos : nat)
  : res (tri bytes * tri bytes * nat) :=
  for_loop (numSboxes P) 0
    (fun k '(state, comm, pos) =>
       let i := 3 * k in
       a <- triM (fun j => getBit (tget state j) (i + 2)) ;;
       b <- triM (fun j => getBit (tget state j) (i + 1)) ;;
       c <- triM (fun j => getBit (tget state j) i) ;;
       '(ab, comm, pos) <- mpc_AND a b tape comm pos ;;
       '(bc, comm, pos) <- mpc_AND b c tape comm pos ;;
       '(ca, comm, pos) <- mpc_AND c a tape comm pos ;;
       state <- triM (fun j => sbox_write (tget state j) i (tget a j) (tget b j) (tget c j)
                                          (tget ab j) (tget bc j) (tget ca j)) ;;
       Ok (state, comm, pos)) (state, comm, pos).

(** picnic_impl.c:767-800 [mpc_LowMC]; [slabSize] is the size of the scratch buffer; the six
    word arrays carved out of it are disjoint and modelled as separate buffers. *)
Definition mpc_LowMC (tape : tri bytes) (views : tri view) (plaintext : bytes) (slabSize : nat)
  : res (tri view) :=
  let W := stateSizeWords P in
  _ <- guard (6 * W * 4 <=? slabSize) ;;
  let keyShares := (v_inputShare (tget views 0), v_inputShare (tget views 1),
                    v_inputShare (tget views 2)) in
  state <- mpc_xor_constant (zero_words, zero_words, zero_words) plaintext W ;;
  roundKey <- mpc_matrix_mul3 (zero_words, zero_words, zero_words) keyShares (KMatrix E P 0) ;;
  state <- mpc_xor3 state roundKey W ;;
  '(state, _, comm, _) <-
    for_loop (numRounds P) 1
      (fun r '(state, roundKey, comm, pos) =>
         roundKey <- mpc_matrix_mul3 roundKey keyShares (KMatrix E P r) ;;
         '(state, comm, pos) <- mpc_substitution state tape comm pos ;;
         state <- mpc_matrix_mul3 state state (LMatrix E P (r - 1)) ;;
         state <- mpc_xor_constant state (RConstant E P (r - 1)) W ;;
         state <- mpc_xor3 state roundKey W ;;
         Ok (state, roundKey, comm, pos))
      (state, roundKey,
       (v_communicatedBits (tget views 0), v_communicatedBits (tget views 1),
        v_communicatedBits (tget views 2)), 0) ;;
  triM (fun i =>
          o <- slice (tget state i) 0 (stateSizeBytes P) ;;
          out <- blit (v_outputShare (tget views i)) 0 o ;;
          Ok (mkView (v_inputShare (tget views i)) (tget comm i) out)).

(** picnic_impl.c:847-866 [computeSeeds]: one squeeze; seed j of round k is at offset
    (numMPCParties*k + j) * seedSizeBytes of the slab, the salt follows the last seed
    (picnic_types.c:171-205 [allocateSeeds], case numMPCParties == 3). *)
Definition computeSeeds (privateKey publicKey plaintext message : bytes) : res bytes :=
  sk <- slice privateKey 0 (stateSizeBytes P) ;;
  ct <- slice publicKey 0 (stateSizeBytes P) ;;
  pt <- slice plaintext 0 (stateSizeBytes P) ;;
  Ok (hash E P HASH_PREFIX_NONE [sk; message; ct; pt; intLE (stateSizeBits P)]
           (seedSizeBytes P * (numMPCParties P * numMPCRounds P) + saltSizeBytes P)).

Definition seed_at (allSeeds : bytes) (k j : nat) : res bytes :=
  slice allSeeds ((numMPCParties P * k + j) * seedSizeBytes P) (seedSizeBytes P).

Definition salt_of (allSeeds : bytes) : res bytes :=
  slice allSeeds (numMPCRounds P * numMPCParties P * seedSizeBytes P) (saltSizeBytes P).

(** What the signer keeps for one round. *)
Record round_data : Type := mkRound {
  r_seeds : tri bytes;
  r_views : tri view;
  r_commits : tri bytes;
  r_gs : tri bytes
}.

(** picnic_impl.c:890-933: one iteration of the signing loop; [None]: return EXIT_FAILURE. *)
Definition sign_round (k : nat) (allSeeds salt privateKey pubKey plaintext : bytes)
  : res (option round_data) :=
  let sB := stateSizeBytes P in
  let aB := andSizeBytes P in
  let tmp := uninit E site_sign_tmp k (Nat.max (9 * sB) (sB + aB)) in
  s0 <- seed_at allSeeds k 0 ;;
  '(status0, tmp) <- createRandomTape s0 salt k 0 tmp (sB + aB) ;;
  if negb status0 then Ok None else
  in0 <- copy (zeros sB) tmp 0 sB ;;
  in0 <- zeroTrailingBits in0 (stateSizeBits P) ;;
  tape0 <- copy (uninit E site_sign_tape k getTapeSizeBytes) tmp sB aB ;;
  s1 <- seed_at allSeeds k 1 ;;
  '(status1, tmp) <- createRandomTape s1 salt k 1 tmp (sB + aB) ;;
  if negb status1 then Ok None else
  in1 <- copy (zeros sB) tmp 0 sB ;;
  in1 <- zeroTrailingBits in1 (stateSizeBits P) ;;
  tape1 <- copy (uninit E (site_sign_tape + 1) k getTapeSizeBytes) tmp sB aB ;;
  s2 <- seed_at allSeeds k 2 ;;
  '(status2, tape2) <- createRandomTape s2 salt k 2
                         (uninit E (site_sign_tape + 2) k getTapeSizeBytes) aB ;;
  if negb status2 then Ok None else
  in2 <- xor_three (zeros sB) privateKey in0 in1 sB ;;
  let z := zeros aB in
  let zo := zeros sB in
  views <- mpc_LowMC (tape0, tape1, tape2)
             (mkView in0 z zo, mkView in1 z zo, mkView in2 z zo) plaintext (length tmp) ;;
  temp <- xor_three (zeros LOWMC_MAX_STATE_BYTES) (v_outputShare (tget views 0))
            (v_outputShare (tget views 1)) (v_outputShare (tget views 2)) sB ;;
  ok <- memcmp_eq temp pubKey sB ;;
  if negb ok then Ok None else
  c0 <- Commit s0 (tget views 0) ;;
  c1 <- Commit s1 (tget views 1) ;;
  c2 <- Commit s2 (tget views 2) ;;
  gs <- (if is_UR (transf P) then
           g0 <- G 0 s0 (tget views 0) (uninit E site_G k (UnruhGWithInputBytes P)) ;;
           g1 <- G 1 s1 (tget views 1) (uninit E (site_G + 1) k (UnruhGWithInputBytes P)) ;;
           g2 <- G 2 s2 (tget views 2) (uninit E (site_G + 2) k (UnruhGWithInputBytes P)) ;;
           Ok (g0, g1, g2)
         else Ok ([], [], [])) ;;
  Ok (Some (mkRound (s0, s1, s2) views (c0, c1, c2) gs)).

(** The signing loop with its early returns. *)
Fixpoint sign_rounds (n k : nat) (allSeeds salt privateKey pubKey plaintext : bytes)
  : res (option (list round_data)) :=
  match n with
  | O => Ok (Some [])
  | S n' =>
      r <- sign_round k allSeeds salt privateKey pubKey plaintext ;;
      match r with
      | None => Ok None
      | Some rd =>
          rest <- sign_rounds n' (S k) allSeeds salt privateKey pubKey plaintext ;;
          match rest with
          | None => Ok None
          | Some l => Ok (Some (rd :: l))
          end
      end
  end.

(** picnic_impl.c:869-978 [sign_picnic1]; [None]: EXIT_FAILURE. *)
Definition sign_picnic1 (fuel : nat) (privateKey pubKey plaintext message : bytes)
  : res (option signature) :=
  let T := numMPCRounds P in
  allSeeds <- computeSeeds privateKey pubKey plaintext message ;;
  salt <- salt_of allSeeds ;;
  r <- sign_rounds T 0 allSeeds salt privateKey pubKey plaintext ;;
  match r with
  | None => Ok None
  | Some rounds =>
      chal <- H3 fuel pubKey plaintext
                 (map (fun r => let v := r_views r in
                                (v_outputShare (tget v 0), v_outputShare (tget v 1),
                                 v_outputShare (tget v 2))) rounds)
                 (map r_commits rounds)
                 (uninit E site_challengeBits 0 (numBytes (2 * T)))
                 salt message (map r_gs rounds) ;;
      proofs <- mapM_seq T 0
                  (fun i =>
                     r <- rd rounds i ;;
                     c <- getChallenge chal i ;;
                     prove (allocateProof site_proof i) c (r_seeds r) (r_views r)
                           (r_commits r) (r_gs r)) ;;
      Ok (Some (mkSig proofs chal salt))
  end.

(** ** Serialisation *)

(** picnic_impl.c:1009-1032: the bytes of one round. *)
Definition serialize_round (challengeBits : bytes) (pr : proof) (i : nat) : res bytes :=
  challenge <- getChallenge challengeBits i ;;
  v3c <- slice (p_view3Commitment pr) 0 (digestSizeBytes P) ;;
  v3g <- (if is_UR (transf P)
          then slice (p_view3UnruhG pr) 0
                     (if challenge =? 0 then UnruhGWithInputBytes P else UnruhGWithoutInputBytes P)
          else Ok []) ;;
  comm <- slice (p_communicatedBits pr) 0 (andSizeBytes P) ;;
  s1 <- slice (p_seed1 pr) 0 (seedSizeBytes P) ;;
  s2 <- slice (p_seed2 pr) 0 (seedSizeBytes P) ;;
  inp <- (if (challenge =? 1) || (challenge =? 2)
          then slice (p_inputShare pr) 0 (stateSizeBytes P) else Ok []) ;;
  Ok (v3c ++ v3g ++ comm ++ s1 ++ s2 ++ inp).

(** picnic_impl.c:988-993. *)
Definition serialize_bytesRequired : nat :=
  numBytes (2 * numMPCRounds P) + saltSizeBytes P
  + numMPCRounds P * (2 * seedSizeBytes P + stateSizeBytes P + andSizeBytes P + digestSizeBytes P)
  + (if is_UR (transf P) then UnruhGWithoutInputBytes P * numMPCRounds P else 0).

(** picnic_impl.c:982-1038 [serializeSignature]; [None]: return -1; otherwise the number of
    bytes written and the new contents of the caller's buffer. The [memcpy] calls to consecutive
    offsets are modelled as one write of the concatenation. *)
Definition serializeSignature (sig : signature) (sigBytes : bytes) (sigBytesLen : nat)
  : res (option (nat * bytes)) :=
  if sigBytesLen <? serialize_bytesRequired then Ok None
  else
    cb <- slice (s_challengeBits sig) 0 (numBytes (2 * numMPCRounds P)) ;;
    salt <- slice (s_salt sig) 0 (saltSizeBytes P) ;;
    rounds <- mapM_seq (numMPCRounds P) 0
                (fun i => pr <- rd (s_proofs sig) i ;;
                          serialize_round (s_challengeBits sig) pr i) ;;
    let out := cb ++ salt ++ concat rounds in
    buf <- blit sigBytes 0 out ;;
    Ok (Some (length out, buf)).

(** picnic_impl.c:1041-1056 [computeInputShareSize]. *)
Definition computeInputShareSize (challengeBits : bytes) : res nat :=
  for_loop (numMPCRounds P) 0
    (fun i size =>
       challenge <- getChallenge challengeBits i ;;
       Ok (if (challenge =? 1) || (challenge =? 2) then size + stateSizeBytes P else size)) 0.

(** picnic_impl.c:1058-1067 [isChallengeValid]. *)
Fixpoint isChallengeValid_from (n i : nat) (challengeBits : bytes) : res bool :=
  match n with
  | O => Ok true
  | S n' => challenge <- getChallenge challengeBits i ;;
            if 2 <? challenge then Ok false else isChallengeValid_from n' (S i) challengeBits
  end.
Definition isChallengeValid (challengeBits : bytes) : res bool :=
  isChallengeValid_from (numMPCRounds P) 0 challengeBits.

(** picnic_impl.c:1115-1141: read one round at offset [off]; [None]: padding bits not zero. *)
Definition deserialize_round (challengeBits sigBytes : bytes) (off i : nat)
  : res (option (proof * nat)) :=
  let pr := allocateProof site_vproof i in
  challenge <- getChallenge challengeBits i ;;
  v3c <- slice sigBytes off (digestSizeBytes P) ;;
  v3c <- blit (p_view3Commitment pr) 0 v3c ;;
  let off := off + digestSizeBytes P in
  '(v3g, off) <-
     (if is_UR (transf P) then
        let len := if challenge =? 0 then UnruhGWithInputBytes P else UnruhGWithoutInputBytes P in
        g <- slice sigBytes off len ;;
        g <- blit (p_view3UnruhG pr) 0 g ;;
        Ok (g, off + len)
      else Ok (p_view3UnruhG pr, off)) ;;
  comm <- slice sigBytes off (andSizeBytes P) ;;
  comm <- blit (p_communicatedBits pr) 0 comm ;;
  let off := off + andSizeBytes P in
  s1 <- slice sigBytes off (seedSizeBytes P) ;;
  s1 <- blit (p_seed1 pr) 0 s1 ;;
  let off := off + seedSizeBytes P in
  s2 <- slice sigBytes off (seedSizeBytes P) ;;
  s2 <- blit (p_seed2 pr) 0 s2 ;;
  let off := off + seedSizeBytes P in
  if (challenge =? 1) || (challenge =? 2) then
    i <- slice sigBytes off (stateSizeBytes P) ;;
    i <- blit (p_inputShare pr) 0 i ;;
    ok <- arePaddingBitsZero i (stateSizeBits P) ;;
    if (ok : bool) then Ok (Some (mkProof s1 s2 i comm v3c v3g, off + stateSizeBytes P))
    else Ok None
  else Ok (Some (mkProof s1 s2 (p_inputShare pr) comm v3c v3g, off)).

Fixpoint deserialize_rounds (n i : nat) (challengeBits sigBytes : bytes) (off : nat)
  : res (option (list proof)) :=
  match n with
  | O => Ok (Some [])
  | S n' =>
      r <- deserialize_round challengeBits sigBytes off i ;;
      match r with
      | None => Ok None
      | Some (pr, off) =>
          rest <- deserialize_rounds n' (S i) challengeBits sigBytes off ;;
          match rest with
          | None => Ok None
          | Some l => Ok (Some (pr :: l))
          end
      end
  end.

(** picnic_impl.c:1081-1146 [deserializeSignature]; [None]: EXIT_FAILURE. The buffer
    [sigBytes] has exactly [sigBytesLen] bytes; reading past it is [UB]. *)
Definition deserializeSignature (sigBytes : bytes) : res (option signature) :=
  let T := numMPCRounds P in
  let sigBytesLen := length sigBytes in
  if sigBytesLen <? numBytes (2 * T) then Ok None
  else
    inputShareSize <- computeInputShareSize sigBytes ;;
    let bytesExpected :=
      numBytes (2 * T) + saltSizeBytes P
      + T * (2 * seedSizeBytes P + andSizeBytes P + digestSizeBytes P) + inputShareSize
      + (if is_UR (transf P) then UnruhGWithoutInputBytes P * T else 0) in
    if sigBytesLen <? bytesExpected then Ok None
    else
      cb <- slice sigBytes 0 (numBytes (2 * T)) ;;
      valid <- isChallengeValid cb ;;
      if negb valid then Ok None
      else
        salt <- slice sigBytes (numBytes (2 * T)) (saltSizeBytes P) ;;
        r <- deserialize_rounds T 0 cb sigBytes (numBytes (2 * T) + saltSizeBytes P) ;;
        match r with
        | None => Ok None
        | Some proofs => Ok (Some (mkSig proofs cb salt))
        end.

End Picnic1.
