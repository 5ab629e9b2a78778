(** The hash function: hash.c and the Keccak code in sha3/.  Little-endian
    platform, [KeccakReference] and [SnP_FastLoop_Absorb] not defined (nothing in the
    repository defines them), asserts enabled (the Makefile does not set NDEBUG).
    [unsigned int] has 32 bits and wraps; [size_t] has 64 bits and wraps. *)

From Coq Require Import List NArith Arith Bool.
From Verif Require Import Base Params Env.
Import ListNotations.

Definition u32 (n : nat) : nat := N.to_nat (N.modulo (N.of_nat n) (2 ^ 32)).
Definition u64 (n : nat) : nat := N.to_nat (N.modulo (N.of_nat n) (2 ^ 64)).

(** ** The permutation, sha3/KeccakP-1600-reference.c *)

(** Lines 98-124. *)
Definition KeccakRoundConstants : list N :=
  [0x0000000000000001; 0x0000000000008082; 0x800000000000808a; 0x8000000080008000;
   0x000000000000808b; 0x0000000080000001; 0x8000000080008081; 0x8000000000008009;
   0x000000000000008a; 0x0000000000000088; 0x0000000080008009; 0x000000008000000a;
   0x000000008000808b; 0x800000000000008b; 0x8000000000008089; 0x8000000000008003;
   0x8000000000008002; 0x8000000000000080; 0x000000000000800a; 0x800000008000000a;
   0x8000000080008081; 0x8000000000008080; 0x0000000080000001; 0x8000000080008008]%N.

(** Lines 126-129. *)
Definition KeccakRhoOffsets : list nat :=
  [0; 1; 62; 28; 27; 36; 44; 6; 55; 20; 3; 10; 43; 25; 39; 41; 45; 15; 21; 8; 18; 2; 61; 56; 14].

(** Line 31 [index]. *)
Definition index (x y : nat) : nat := x mod 5 + 5 * (y mod 5).

(** Lines 135-138 [KeccakP1600_Initialize]. *)
Definition KeccakP1600_Initialize : bytes := zeros 200.

(** Lines 142-146 [KeccakP1600_AddByte]. *)
Definition KeccakP1600_AddByte (state : bytes) (byte : N) (offset : nat) : res bytes :=
  _ <- c_assert (offset <? 200) ;;
  s <- rd state offset ;; wr state offset (N.lxor s byte).

(** Lines 150-158 [KeccakP1600_AddBytes]; the operand is [data + cur]. *)
Definition KeccakP1600_AddBytes (state data : bytes) (cur offset length : nat) : res bytes :=
  _ <- c_assert (offset <? 200) ;;
  _ <- c_assert (u32 (offset + length) <=? 200) ;;
  for_loop length 0 (fun i st =>
    d <- rd data (cur + i) ;;
    s <- rd st (u32 (offset + i)) ;;
    wr st (u32 (offset + i)) (N.lxor s d)) state.

(** Lines 374-379 [KeccakP1600_ExtractBytes]; the destination is [data + cur]. *)
Definition KeccakP1600_ExtractBytes (state data : bytes) (cur offset length : nat) : res bytes :=
  _ <- c_assert (offset <? 200) ;;
  _ <- c_assert (u32 (offset + length) <=? 200) ;;
  x <- slice state offset length ;; blit data cur x.

(** Lines 252-261 [fromBytesToWords]; on a little-endian machine this is the view of
    the byte array through the cast in line 241. *)
Definition fromBytesToWords (state : bytes) : res (list N) :=
  mapM_seq 25 0 (fun i =>
    for_loop 8 0 (fun j w =>
      b <- rd state (i * 8 + j) ;;
      Ok (N.lor w (N.shiftl b (N.of_nat (8 * j))))) 0%N).

(** Lines 263-270 [fromWordsToBytes]. *)
Definition fromWordsToBytes (stateAsWords : list N) : res bytes :=
  mapM_seq 200 0 (fun k =>
    w <- rd stateAsWords (k / 8) ;;
    Ok (N.land (N.shiftr w (N.of_nat (8 * (k mod 8)))) 255)).

(** Line 316 [ROL64]. *)
Definition ROL64 (a : N) (offset : nat) : N :=
  if offset =? 0 then a
  else N.lxor (N.modulo (N.shiftl a (N.of_nat offset)) (2 ^ 64))
              (N.shiftr a (N.of_nat (64 - offset))).

(** Lines 318-333 [theta].  The local array C is written before it is read. *)
Definition theta (A : list N) : res (list N) :=
  C <- mapM_seq 5 0 (fun x =>
         for_loop 5 0 (fun y c => a <- rd A (index x y) ;; Ok (N.lxor c a)) 0%N) ;;
  D <- mapM_seq 5 0 (fun x =>
         c1 <- rd C ((x + 1) mod 5) ;; c4 <- rd C ((x + 4) mod 5) ;;
         Ok (N.lxor (ROL64 c1 1) c4)) ;;
  for_loop 5 0 (fun x A =>
    for_loop 5 0 (fun y A =>
      a <- rd A (index x y) ;; d <- rd D x ;; wr A (index x y) (N.lxor a d)) A) A.

(** Lines 335-341 [rho]. *)
Definition rho (A : list N) : res (list N) :=
  for_loop 5 0 (fun x A =>
    for_loop 5 0 (fun y A =>
      a <- rd A (index x y) ;; o <- rd KeccakRhoOffsets (index x y) ;;
      wr A (index x y) (ROL64 a o)) A) A.

(** Lines 343-352 [pi]; tempA is a full copy of A. *)
Definition pi (A : list N) : res (list N) :=
  let tempA := A in
  for_loop 5 0 (fun x A =>
    for_loop 5 0 (fun y A =>
      a <- rd tempA (index x y) ;;
      wr A (index (0 * x + 1 * y) (2 * x + 3 * y)) a) A) A.

(** Lines 354-365 [chi]. *)
Definition chi (A : list N) : res (list N) :=
  for_loop 5 0 (fun y A =>
    C <- mapM_seq 5 0 (fun x =>
           a0 <- rd A (index x y) ;; a1 <- rd A (index (x + 1) y) ;; a2 <- rd A (index (x + 2) y) ;;
           Ok (N.lxor a0 (N.land (N.lnot a1 64) a2))) ;;
    for_loop 5 0 (fun x A => c <- rd C x ;; wr A (index x y) c) A) A.

(** Lines 367-370 [iota]. *)
Definition iota (A : list N) (indexRound : nat) : res (list N) :=
  a <- rd A (index 0 0) ;; rc <- rd KeccakRoundConstants indexRound ;;
  wr A (index 0 0) (N.lxor a rc).

(** Lines 284-314 [KeccakP1600Round]. *)
Definition KeccakP1600Round (state : list N) (indexRound : nat) : res (list N) :=
  s <- theta state ;; s <- rho s ;; s <- pi s ;; s <- chi s ;; iota s indexRound.

(** Lines 272-282 [KeccakP1600OnWords]. *)
Definition KeccakP1600OnWords (state : list N) (nrRounds : nat) : res (list N) :=
  for_loop nrRounds (24 - nrRounds) (fun i s => KeccakP1600Round s i) state.

(** Lines 231-250 [KeccakP1600_Permute_24rounds]. *)
Definition SnP_Permute (state : bytes) : res bytes :=
  w <- fromBytesToWords state ;;
  w <- KeccakP1600OnWords w 24 ;;
  fromWordsToBytes w.

(** ** The sponge, sha3/KeccakSponge.inc with the prefix KeccakWidth1600 *)

(** sha3/KeccakSponge-common.h:22-28. *)
Record SpongeInstance : Type := mkSponge {
  sp_state : bytes;
  sp_rate : nat;
  byteIOIndex : nat;
  squeezing : bool
}.

Definition set_state (inst : SpongeInstance) (s : bytes) : SpongeInstance :=
  mkSponge s (sp_rate inst) (byteIOIndex inst) (squeezing inst).
Definition set_idx (inst : SpongeInstance) (i : nat) : SpongeInstance :=
  mkSponge (sp_state inst) (sp_rate inst) i (squeezing inst).
Definition set_squeezing (inst : SpongeInstance) : SpongeInstance :=
  mkSponge (sp_state inst) (sp_rate inst) (byteIOIndex inst) true.

(** KeccakSponge.inc:133-146 [SpongeInitialize]: return code and instance. *)
Definition SpongeInitialize (inst : SpongeInstance) (rate capacity : nat) : nat * SpongeInstance :=
  if negb (rate + capacity =? 1600) then (1, inst)
  else if (rate =? 0) || (1600 <? rate) || negb (rate mod 8 =? 0) then (1, inst)
  else (0, mkSponge KeccakP1600_Initialize rate 0 false).

(** KeccakSponge.inc:174-181, the loop over whole blocks: [j] bytes are left.
    Result: state, [curData], [j]. *)
Fixpoint absorb_blocks (fuel : nat) (rateInBytes : nat) (data : bytes) (j cur : nat) (state : bytes)
  : res (bytes * nat * nat) :=
  match fuel with
  | O => NoFuel
  | S fuel' =>
    if rateInBytes <=? j then
      s <- KeccakP1600_AddBytes state data cur 0 rateInBytes ;;
      s <- SnP_Permute s ;;
      absorb_blocks fuel' rateInBytes data (j - rateInBytes) (cur + rateInBytes) s
    else Ok (state, cur, j)
  end.

(** KeccakSponge.inc:162-205, the loop of [SpongeAbsorb]. *)
Fixpoint absorb_loop (fuel : nat) (rateInBytes : nat) (data : bytes) (dataByteLen i cur : nat)
         (inst : SpongeInstance) : res SpongeInstance :=
  match fuel with
  | O => NoFuel
  | S fuel' =>
    if i <? dataByteLen then
      if (byteIOIndex inst =? 0) && (i + rateInBytes <=? dataByteLen) then
        '(s, cur', j) <- absorb_blocks (S (dataByteLen - i)) rateInBytes data (dataByteLen - i) cur (sp_state inst) ;;
        absorb_loop fuel' rateInBytes data dataByteLen (dataByteLen - j) cur' (set_state inst s)
      else
        let partialBlock := u32 (dataByteLen - i) in
        let partialBlock := if rateInBytes <? u32 (partialBlock + byteIOIndex inst)
                            then rateInBytes - byteIOIndex inst else partialBlock in
        s <- KeccakP1600_AddBytes (sp_state inst) data cur (byteIOIndex inst) partialBlock ;;
        let inst := set_idx (set_state inst s) (u32 (byteIOIndex inst + partialBlock)) in
        inst <- (if byteIOIndex inst =? rateInBytes
              then s <- SnP_Permute (sp_state inst) ;; Ok (set_idx (set_state inst s) 0)
              else Ok inst) ;;
        absorb_loop fuel' rateInBytes data dataByteLen (i + partialBlock) (cur + partialBlock) inst
    else Ok inst
  end.

(** KeccakSponge.inc:150-207 [SpongeAbsorb]: return code and instance.  [fuel] bounds the
    iterations of the outer loop; every iteration that makes progress consumes a byte. *)
Definition SpongeAbsorb (fuel : nat) (inst : SpongeInstance) (data : bytes) (dataByteLen : nat)
  : res (nat * SpongeInstance) :=
  if squeezing inst then Ok (1, inst)
  else inst' <- absorb_loop fuel (sp_rate inst / 8) data dataByteLen 0 0 inst ;; Ok (0, inst').

(** KeccakSponge.inc:211-249 [SpongeAbsorbLastFewBits]. *)
Definition SpongeAbsorbLastFewBits (inst : SpongeInstance) (delimitedData : N) : res (nat * SpongeInstance) :=
  let rateInBytes := sp_rate inst / 8 in
  if N.eqb delimitedData 0 then Ok (1, inst)
  else if squeezing inst then Ok (1, inst)
  else
    s <- KeccakP1600_AddByte (sp_state inst) delimitedData (byteIOIndex inst) ;;
    s <- (if (N.leb 128 delimitedData) && (byteIOIndex inst =? rateInBytes - 1)
          then SnP_Permute s else Ok s) ;;
    s <- KeccakP1600_AddByte s 128 (rateInBytes - 1) ;;
    s <- SnP_Permute s ;;
    Ok (0, set_squeezing (set_idx (set_state inst s) 0)).

(** KeccakSponge.inc:267-275, the loop over whole blocks: [j] bytes are left.
    Result: state, output buffer, [curData], [j]. *)
Fixpoint squeeze_blocks (fuel : nat) (rateInBytes : nat) (data : bytes) (j cur : nat) (state : bytes)
  : res (bytes * bytes * nat * nat) :=
  match fuel with
  | O => NoFuel
  | S fuel' =>
    if rateInBytes <=? j then
      s <- SnP_Permute state ;;
      d <- KeccakP1600_ExtractBytes s data cur 0 rateInBytes ;;
      squeeze_blocks fuel' rateInBytes d (j - rateInBytes) (cur + rateInBytes) s
    else Ok (state, data, cur, j)
  end.

(** KeccakSponge.inc:265-295, the loop of [SpongeSqueeze].  Result: instance and
    output buffer. *)
Fixpoint squeeze_loop (fuel : nat) (rateInBytes : nat) (data : bytes) (dataByteLen i cur : nat)
         (inst : SpongeInstance) : res (SpongeInstance * bytes) :=
  match fuel with
  | O => NoFuel
  | S fuel' =>
    if i <? dataByteLen then
      if (byteIOIndex inst =? rateInBytes) && (i + rateInBytes <=? dataByteLen) then
        '(s, d, cur', j) <- squeeze_blocks (S (dataByteLen - i)) rateInBytes data (dataByteLen - i) cur (sp_state inst) ;;
        squeeze_loop fuel' rateInBytes d dataByteLen (dataByteLen - j) cur' (set_state inst s)
      else
        inst <- (if byteIOIndex inst =? rateInBytes
              then s <- SnP_Permute (sp_state inst) ;; Ok (set_idx (set_state inst s) 0)
              else Ok inst) ;;
        let partialBlock := u32 (dataByteLen - i) in
        let partialBlock := if rateInBytes <? u32 (partialBlock + byteIOIndex inst)
                            then rateInBytes - byteIOIndex inst else partialBlock in
        d <- KeccakP1600_ExtractBytes (sp_state inst) data cur (byteIOIndex inst) partialBlock ;;
        squeeze_loop fuel' rateInBytes d dataByteLen (i + partialBlock) (cur + partialBlock)
                     (set_idx inst (u32 (byteIOIndex inst + partialBlock)))
    else Ok (inst, data)
  end.

(** KeccakSponge.inc:253-297 [SpongeSqueeze]: return code, instance and output buffer. *)
Definition SpongeSqueeze (fuel : nat) (inst : SpongeInstance) (data : bytes) (dataByteLen : nat)
  : res (nat * SpongeInstance * bytes) :=
  inst <- (if squeezing inst then Ok inst
        else '(_, inst') <- SpongeAbsorbLastFewBits inst 1 ;; Ok inst') ;;
  '(inst', d) <- squeeze_loop fuel (sp_rate inst / 8) data dataByteLen 0 0 inst ;;
  Ok (0, inst', d).

(** ** sha3/KeccakHash.c *)

(** sha3/KeccakHash.h:33-37. *)
Record Keccak_HashInstance : Type := mkHash {
  sponge : SpongeInstance;
  fixedOutputLength : nat;
  delimitedSuffix : N
}.

Definition set_sponge (H : Keccak_HashInstance) (inst : SpongeInstance) : Keccak_HashInstance :=
  mkHash inst (fixedOutputLength H) (delimitedSuffix H).
Definition set_suffix (H : Keccak_HashInstance) (x : N) : Keccak_HashInstance :=
  mkHash (sponge H) (fixedOutputLength H) x.

(** KeccakHash.c:21-33 [Keccak_HashInitialize]. *)
Definition Keccak_HashInitialize (H : Keccak_HashInstance) (rate capacity hashbitlen : nat) (suffix : N)
  : nat * Keccak_HashInstance :=
  if N.eqb suffix 0 then (1, H)
  else
    let '(result, inst) := SpongeInitialize (sponge H) rate capacity in
    if negb (result =? 0) then (result, set_sponge H inst)
    else (0, mkHash inst hashbitlen suffix).

(** KeccakHash.c:37-60 [Keccak_HashUpdate]. *)
Definition Keccak_HashUpdate (fuel : nat) (H : Keccak_HashInstance) (data : bytes) (databitlen : nat)
  : res (nat * Keccak_HashInstance) :=
  '(ret, inst) <- SpongeAbsorb fuel (sponge H) data (databitlen / 8) ;;
  let H := set_sponge H inst in
  if databitlen mod 8 =? 0 then Ok (ret, H)
  else if negb (ret =? 0) then Ok (ret, H)
  else
    lastByte <- rd data (databitlen / 8) ;;
    let w := N.lor lastByte (N.modulo (N.shiftl (delimitedSuffix H) (N.of_nat (databitlen mod 8))) (2 ^ 16)) in
    if N.eqb (N.land w 0xFF00) 0 then Ok (ret, set_suffix H (N.land w 0xFF))
    else
      '(ret, inst) <- SpongeAbsorb fuel (sponge H) [N.land w 0xFF] 1 ;;
      Ok (ret, set_suffix (set_sponge H inst) (N.land (N.shiftr w 8) 0xFF)).

(** KeccakHash.c:64-71 [Keccak_HashFinal]. *)
Definition Keccak_HashFinal (fuel : nat) (H : Keccak_HashInstance) (hashval : bytes)
  : res (nat * Keccak_HashInstance * bytes) :=
  '(ret, inst) <- SpongeAbsorbLastFewBits (sponge H) (delimitedSuffix H) ;;
  let H := set_sponge H inst in
  if ret =? 0 then
    '(ret, inst, d) <- SpongeSqueeze fuel (sponge H) hashval (fixedOutputLength H / 8) ;;
    Ok (ret, set_sponge H inst, d)
  else Ok (ret, H, hashval).

(** KeccakHash.c:75-80 [Keccak_HashSqueeze]. *)
Definition Keccak_HashSqueeze (fuel : nat) (H : Keccak_HashInstance) (data : bytes) (databitlen : nat)
  : res (nat * Keccak_HashInstance * bytes) :=
  if negb (databitlen mod 8 =? 0) then Ok (1, H, data)
  else '(ret, inst, d) <- SpongeSqueeze fuel (sponge H) data (databitlen / 8) ;;
       Ok (ret, set_sponge H inst, d).

(** ** hash.c *)

(** hash.c:21-29 [HashUpdate]. *)
Definition HashUpdate (fuel : nat) (ctx : Keccak_HashInstance) (data : bytes) (byteLen : nat)
  : res Keccak_HashInstance :=
  '(ret, ctx) <- Keccak_HashUpdate fuel ctx data (u64 (byteLen * 8)) ;;
  _ <- c_assert (ret =? 0) ;; Ok ctx.

(** hash.c:31-43 [HashInit]; the return value of [Keccak_HashInitialize] is ignored.
    [prefix] is [None] for HASH_PREFIX_NONE. *)
Definition HashInit (fuel : nat) (ctx : Keccak_HashInstance) (params : paramset) (prefix : option N)
  : res Keccak_HashInstance :=
  let ctx := snd (if use_shake128 params
                  then Keccak_HashInitialize ctx 1344 256 0 0x1F
                  else Keccak_HashInitialize ctx 1088 512 0 0x1F) in
  match prefix with
  | None => Ok ctx
  | Some b => HashUpdate fuel ctx [b] 1
  end.

(** hash.c:45-52 [HashFinal]; NULL is a buffer without bytes.  A failure is only printed. *)
Definition HashFinal (fuel : nat) (ctx : Keccak_HashInstance) : res Keccak_HashInstance :=
  '(_, ctx, _) <- Keccak_HashFinal fuel ctx [] ;; Ok ctx.

(** hash.c:55-62 [HashSqueeze]: context and output buffer.  A failure is only printed. *)
Definition HashSqueeze (fuel : nat) (ctx : Keccak_HashInstance) (digest : bytes) (byteLen : nat)
  : res (Keccak_HashInstance * bytes) :=
  '(_, ctx, d) <- Keccak_HashSqueeze fuel ctx digest (u64 (byteLen * 8)) ;; Ok (ctx, d).

(** hash.c:83-88 [HashUpdateIntLE]. *)
Definition HashUpdateIntLE (fuel : nat) (ctx : Keccak_HashInstance) (x : nat) : res Keccak_HashInstance :=
  HashUpdate fuel ctx (intLE x) 2.
