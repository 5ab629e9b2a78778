(** The signature scheme of Section 6 of the Picnic specification, version 3.0
    (/repo/spec/spec-v3.0.pdf), written on bits and byte strings, independently of the code.

    Where the text and the code differ, or the text leaves something open, this file follows the
    code, as marked by "Code:" below. The differences are:
    - the message hashed to the challenge ends with pk, salt, M (text, step 4: salt, pk, M);
    - the derivation of seeds and salt hashes the block size n (text, step 2: S); these differ
      for picnic-L1-full (129 and 128) and picnic-L5-full (255 and 256);
    - input share and AND-gate bits of a tape start at byte boundaries and the length of the tape
      is counted accordingly (text, step 3a: n + 3rs bits, rounded up once); these differ for
      picnic-L1-full;
    - step 3d of the text writes G(H4(seed), view), Section 6.4.6 of it H5(seed). *)

From Coq Require Import List NArith Arith Bool.
From Verif Require Import Base Params Env Spec.
Import ListNotations.

(** ** Parameters: Table 2 *)
Record sparams : Type := mkSparams {
  sp_S : nat;          (* security level in bits *)
  sp_n : nat;          (* LowMC block and key size *)
  sp_s : nat;          (* S-boxes per round *)
  sp_r : nat;          (* LowMC rounds *)
  sp_shake128 : bool;  (* SHAKE128 or SHAKE256 *)
  sp_H : nat;          (* digest length in bits *)
  sp_T : nat;          (* parallel repetitions *)
  sp_u : nat;          (* challenged repetitions (picnic3) *)
  sp_N : nat;          (* parties *)
  sp_UR : bool         (* Unruh transform *)
}.

(** The numbers of the parameter sets are those of picnic.h. *)
Definition table2 (p : N) : option sparams :=
  match p with
  | 1%N  => Some (mkSparams 128 128 10 20 true  256 219 0 3 false)   (* picnic-L1-FS *)
  | 2%N  => Some (mkSparams 128 128 10 20 true  256 219 0 3 true)    (* picnic-L1-UR *)
  | 3%N  => Some (mkSparams 192 192 10 30 false 384 329 0 3 false)   (* picnic-L3-FS *)
  | 4%N  => Some (mkSparams 192 192 10 30 false 384 329 0 3 true)    (* picnic-L3-UR *)
  | 5%N  => Some (mkSparams 256 256 10 38 false 512 438 0 3 false)   (* picnic-L5-FS *)
  | 6%N  => Some (mkSparams 256 256 10 38 false 512 438 0 3 true)    (* picnic-L5-UR *)
  | 7%N  => Some (mkSparams 128 129 43 4  true  256 250 36 16 false) (* picnic3-L1 *)
  | 8%N  => Some (mkSparams 192 192 64 4  false 384 419 52 16 false) (* picnic3-L3 *)
  | 9%N  => Some (mkSparams 256 255 85 4  false 512 601 68 16 false) (* picnic3-L5 *)
  | 10%N => Some (mkSparams 128 129 43 4  true  256 219 0 3 false)   (* picnic-L1-full *)
  | 11%N => Some (mkSparams 192 192 64 4  false 384 329 0 3 false)   (* picnic-L3-full *)
  | 12%N => Some (mkSparams 256 255 85 4  false 512 438 0 3 false)   (* picnic-L5-full *)
  | _ => None
  end.

(** ** Bits and bytes *)

(** Number of bytes for [k] bits. *)
Definition octets (k : nat) : nat := (k + 7) / 8.

(** The byte with bits [f 0] (most significant) to [f 7]. *)
Definition octet (f : vec) : N :=
  fold_left (fun a i => 2 * a + (if f i then 1 else 0))%N (seq 0 8) 0%N.

(** The first [k] bits of [v] as a byte string, padded with zero bits. *)
Definition bytes_of (k : nat) (v : vec) : bytes :=
  map (fun i => octet (fun b => (8 * i + b <? k) && v (8 * i + b))) (seq 0 (octets k)).

(** 16-bit little-endian encoding. *)
Definition le16 (k : nat) : bytes := [N.of_nat (k mod 256); N.of_nat (k / 256 mod 256)].

(** [len] bytes from position [off]. *)
Definition sub_bytes (b : bytes) (off len : nat) : bytes := firstn len (skipn off b).

(** ** The scheme *)

(** The party after, and the party before party [j]. *)
Definition party_after (j : nat) : nat := (j + 1) mod 3.
Definition party_before (j : nat) : nat := (j + 2) mod 3.

(** Views, Section 6.1. *)
Record zview : Type := mkZview { iShare : vec; transcript : vec; oShare : vec }.

(** The opening of one repetition: b_t and z_t of step 5. *)
Record zopen : Type := mkZopen {
  zo_C : bytes;            (* commitment of the unopened party *)
  zo_G : bytes;            (* its second commitment (Unruh transform) *)
  zo_transcript : bytes;   (* transcript of the party after the challenged one *)
  zo_seed1 : bytes;
  zo_seed2 : bytes;
  zo_iShare : bytes        (* input share of party 2, when it is opened *)
}.

Record zsig : Type := mkZsig { zs_e : bytes; zs_salt : bytes; zs_open : list zopen }.

Section Scheme.
Variable E : env.            (* for the SHAKE functions *)
Variable sp : sparams.
Variable Lm : lowmc.         (* the LowMC instance *)

Let n := sp_n sp.
Let s := sp_s sp.
Let r := sp_r sp.
Let T := sp_T sp.
Let nB := octets (sp_n sp).
Let andB := octets (3 * sp_r sp * sp_s sp).
Let SB := octets (sp_S sp).
Let HB := octets (sp_H sp).

(** 3.2, 3.3 *)
Definition KDF (x : bytes) (len : nat) : bytes := xof E (sp_shake128 sp) x len.
Definition Hi (i : N) (x : bytes) : bytes := KDF ([i] ++ x) HB.

(** *** MPC evaluation: 6.2 step 3(c), 6.4.1-6.4.4 *)

(** AND gate number [q] of a round: gates 3k, 3k+1, 3k+2 are ab, bc, ca of S-box [k]. *)
Definition and_left (v : vec) (q : nat) : bool :=
  let k := q / 3 in
  match q mod 3 with 0 => v (3 * k + 2) | 1 => v (3 * k + 1) | _ => v (3 * k) end.
Definition and_right (v : vec) (q : nat) : bool :=
  let k := q / 3 in
  match q mod 3 with 0 => v (3 * k + 1) | 1 => v (3 * k) | _ => v (3 * k + 2) end.

(** 6.4.2: the share of a party with inputs [a], [b] and random bit [rb]; primed values belong to
    the party after it. *)
Definition mpc_and (a a' b b' rb rb' : bool) : bool :=
  xorb (xorb (xorb (xorb (a && b') (a' && b)) (a && b)) rb) rb'.

(** 6.4.1: the S-box layer on a share, with the shares [z] of the AND gates of the round. *)
Definition mpc_sbox (v : vec) (z : nat -> bool) : vec :=
  fun i =>
    if i <? 3 * s then
      let k := i / 3 in
      let a := v (3 * k + 2) in
      let b := v (3 * k + 1) in
      let c := v (3 * k) in
      match i mod 3 with
      | 0 => xorb (xorb (xorb a b) c) (z (3 * k))
      | 1 => xorb (xorb a b) (z (3 * k + 2))
      | _ => xorb a (z (3 * k + 1))
      end
    else v i.

(** 6.4.3: a constant is added to one share. *)
Definition when (c : bool) (v : vec) : vec := fun i => c && v i.

(** One LowMC round [i] (from 0) of a share with key share [x]. *)
Definition mpc_round (c : bool) (x : vec) (i : nat) (v : vec) (z : nat -> bool) : vec :=
  vxor (vxor (matvec n (lm_L Lm i) (mpc_sbox v z)) (when c (lm_C Lm i)))
       (matvec n (lm_K Lm (S i)) x).

(** The three parties: key shares [x], random bits [rnd], plaintext [p]. *)
Definition gate_out (rnd : nat -> vec) (st : nat -> vec) (i j q : nat) : bool :=
  let j' := party_after j in
  mpc_and (and_left (st j) q) (and_left (st j') q) (and_right (st j) q) (and_right (st j') q)
          (rnd j (3 * s * i + q)) (rnd j' (3 * s * i + q)).

Fixpoint mpc_state (x rnd : nat -> vec) (p : vec) (i : nat) : nat -> vec :=
  match i with
  | O => fun j => vxor (when (j =? 0) p) (matvec n (lm_K Lm 0) (x j))
  | S i' => fun j =>
      let st := mpc_state x rnd p i' in
      mpc_round (j =? 0) (x j) i' (st j) (gate_out rnd st i' j)
  end.

Definition mpc_view (x rnd : nat -> vec) (p : vec) (j : nat) : zview :=
  mkZview (x j)
    (fun g => gate_out rnd (mpc_state x rnd p (g / (3 * s))) (g / (3 * s)) j (g mod (3 * s)))
    (mpc_state x rnd p r j).

(** 6.3 step 3(c): the two opened parties e and e+1 (here 0 and 1); [tr] is the transcript of the
    second one, taken from the signature. *)
Definition ver_gate (rnd : nat -> vec) (tr : vec) (st : nat -> vec) (i j q : nat) : bool :=
  if j =? 0 then
    mpc_and (and_left (st 0) q) (and_left (st 1) q) (and_right (st 0) q) (and_right (st 1) q)
            (rnd 0 (3 * s * i + q)) (rnd 1 (3 * s * i + q))
  else tr (3 * s * i + q).

(** 6.4.3: the opened party that is party 0. *)
Definition ver_const (e j : nat) : bool := ((e =? 0) && (j =? 0)) || ((e =? 2) && (j =? 1)).

Fixpoint ver_state (e : nat) (x rnd : nat -> vec) (tr p : vec) (i : nat) : nat -> vec :=
  match i with
  | O => fun j => vxor (when (ver_const e j) p) (matvec n (lm_K Lm 0) (x j))
  | S i' => fun j =>
      let st := ver_state e x rnd tr p i' in
      mpc_round (ver_const e j) (x j) i' (st j) (ver_gate rnd tr st i' j)
  end.

Definition ver_view (e : nat) (x rnd : nat -> vec) (tr p : vec) (j : nat) : zview :=
  mkZview (x j)
    (fun g => ver_gate rnd tr (ver_state e x rnd tr p (g / (3 * s))) (g / (3 * s)) j (g mod (3 * s)))
    (ver_state e x rnd tr p r j).

(** *** Tapes and commitments *)

(** 6.2 step 3(a): the tape of party [j] in repetition [t]. Code: the input share takes whole
    bytes. *)
Definition tape_share_len (j : nat) : nat := if j =? 2 then 0 else nB.
Definition tape (seed salt : bytes) (t j : nat) : bytes :=
  let len := tape_share_len j + andB in
  KDF (Hi 2 seed ++ salt ++ le16 t ++ le16 j ++ le16 len) len.
Definition tape_share (seed salt : bytes) (t j : nat) : vec := bit (tape seed salt t j).
Definition tape_rand (seed salt : bytes) (t j : nat) : vec :=
  fun g => bit (tape seed salt t j) (8 * tape_share_len j + g).

(** 6.1, step 3(d): commitments; 6.4.6: the function G. *)
Definition commitment (seed : bytes) (v : zview) : bytes :=
  Hi 0 (Hi 4 seed ++ bytes_of n (iShare v) ++ bytes_of (3 * r * s) (transcript v)
          ++ bytes_of n (oShare v)).

Definition G_length (j : nat) : nat := SB + (if j =? 2 then nB else 0) + andB.
Definition G_commitment (j : nat) (seed : bytes) (v : zview) : bytes :=
  KDF (Hi 5 seed ++ (if j =? 2 then bytes_of n (iShare v) else [])
          ++ bytes_of (3 * r * s) (transcript v) ++ le16 (G_length j)) (G_length j).

(** *** The challenge: 6.4.5 *)

(** The values of the bit pairs of a digest; pairs 11 are skipped. *)
Definition pair_value (b0 b1 : bool) : list nat :=
  match b0, b1 with
  | false, false => [0] | false, true => [1] | true, false => [2] | true, true => []
  end.
Definition digest_trits (h : bytes) : list nat :=
  flat_map (fun i => pair_value (bit h (2 * i)) (bit h (2 * i + 1))) (seq 0 (4 * HB)).

(** The digests h, H1(h), H1(H1(h)), ...: [fuel] of them. *)
Fixpoint digests (fuel : nat) (h : bytes) : list bytes :=
  match fuel with O => [] | S fuel' => h :: digests fuel' (Hi 1 h) end.

(** The challenge; [None] when [fuel] digests do not contain [T] values. *)
Definition H3 (fuel : nat) (x : bytes) : option (list nat) :=
  let ts := flat_map digest_trits (digests fuel (Hi 1 x)) in
  if T <=? length ts then Some (firstn T ts) else None.

(** The hashed string: for each repetition and party output share [o], commitment [c], second
    commitment [g]; then the public key, salt and message. Code: in this order. *)
Definition all_parties (f : nat -> nat -> bytes) : bytes :=
  flat_map (fun t => f t 0 ++ f t 1 ++ f t 2) (seq 0 T).
Definition challenge_string (o c g : nat -> nat -> bytes) (pk salt M : bytes) : bytes :=
  all_parties o ++ all_parties c ++ (if sp_UR sp then all_parties g else []) ++ pk ++ salt ++ M.

(** 6.5.1 step 1: 2T bits. Code: the lower bit of a value comes first. *)
Definition challenge_bytes (e : list nat) : bytes :=
  bytes_of (2 * T) (fun k => Nat.odd (nth (k / 2) e 0 / (if k mod 2 =? 0 then 1 else 2))).

(** *** Signing: 6.2 *)
Section Sign.
Variables sk C p : bytes.    (* secret key and public key, nB bytes each *)
Variable M : bytes.          (* message *)

(** Step 2. Code: the 16-bit integer is n. *)
Definition randomness : bytes :=
  KDF (sk ++ M ++ (C ++ p) ++ le16 n) (3 * T * SB + 32).
Definition seed (t j : nat) : bytes := sub_bytes randomness ((3 * t + j) * SB) SB.
Definition salt : bytes := sub_bytes randomness (3 * T * SB) 32.

(** Step 3. *)
Definition key_share (t j : nat) : vec :=
  if j =? 2 then
    vxor (vxor (bit sk) (tape_share (seed t 0) salt t 0)) (tape_share (seed t 1) salt t 1)
  else tape_share (seed t j) salt t j.
Definition sign_view (t j : nat) : zview :=
  mpc_view (key_share t) (fun j => tape_rand (seed t j) salt t j) (bit p) j.
Definition sign_C (t j : nat) : bytes := commitment (seed t j) (sign_view t j).
Definition sign_G (t j : nat) : bytes := G_commitment j (seed t j) (sign_view t j).

(** Step 4. *)
Definition sign_challenge (fuel : nat) : option (list nat) :=
  H3 fuel (challenge_string (fun t j => bytes_of n (oShare (sign_view t j))) sign_C sign_G
                            (C ++ p) salt M).

(** Steps 5 and 6, 6.5.1. *)
Definition sign_round_bytes (t e : nat) : bytes :=
  sign_C t (party_before e) ++ (if sp_UR sp then sign_G t (party_before e) else []) ++
  bytes_of (3 * r * s) (transcript (sign_view t (party_after e))) ++
  seed t e ++ seed t (party_after e) ++
  (if e =? 0 then [] else bytes_of n (iShare (sign_view t 2))).

Definition zkbpp_sign (fuel : nat) : option bytes :=
  match sign_challenge fuel with
  | None => None
  | Some e =>
      Some (challenge_bytes e ++ salt ++
            flat_map (fun t => sign_round_bytes t (nth t e 0)) (seq 0 T))
  end.
End Sign.

(** *** Deserialization: 6.5.2 *)

Definition read (k : nat) (b : bytes) : option (bytes * bytes) :=
  if k <=? length b then Some (firstn k b, skipn k b) else None.

Definition zero_padding (k : nat) (b : bytes) : bool :=
  forallb (fun i => negb (bit b i)) (seq k (8 * octets k - k)).

(** Value [t] of an encoded challenge (code: lower bit first). *)
Definition encoded_trit (c : bytes) (t : nat) : nat :=
  (if bit c (2 * t) then 1 else 0) + (if bit c (2 * t + 1) then 2 else 0).

(** Step 3. Code: padding bits of an input share must be zero. *)
Definition read_round (e : nat) (b : bytes) : option (zopen * bytes) :=
  match read HB b with None => None | Some (c, b) =>
  match (if sp_UR sp then read (G_length (party_before e)) b else Some ([], b)) with
  | None => None | Some (g, b) =>
  match read andB b with None => None | Some (tr, b) =>
  match read SB b with None => None | Some (s1, b) =>
  match read SB b with None => None | Some (s2, b) =>
  match (if e =? 0 then Some ([], b) else read nB b) with
  | None => None | Some (sh, b) =>
  if (e =? 0) || zero_padding n sh then Some (mkZopen c g tr s1 s2 sh, b) else None
  end end end end end end.

Fixpoint read_rounds (es : list nat) (b : bytes) : option (list zopen) :=
  match es with
  | [] => Some []              (* bytes after the signature are ignored *)
  | e :: es' =>
      match read_round e b with
      | None => None
      | Some (o, b) => match read_rounds es' b with None => None | Some os => Some (o :: os) end
      end
  end.

Definition zkbpp_parse (b : bytes) : option zsig :=
  match read (octets (2 * T)) b with None => None | Some (c, b) =>
  match read 32 b with None => None | Some (salt, b) =>
  if forallb (fun t => encoded_trit c t <? 3) (seq 0 T) then
    match read_rounds (map (encoded_trit c) (seq 0 T)) b with
    | None => None
    | Some os => Some (mkZsig c salt os)
    end
  else None
  end end.

(** *** Verification: 6.3 *)
Section Verify.
Variables C p : bytes.
Variable M : bytes.
Variable sg : zsig.

Definition ver_e (t : nat) : nat := encoded_trit (zs_e sg) t.
Definition ver_open (t : nat) : zopen := nth t (zs_open sg) (mkZopen [] [] [] [] [] []).

(** Step 3(b): seed and key share of the opened parties e and e+1. *)
Definition opened_seed (t j : nat) : bytes :=
  if j =? 0 then zo_seed1 (ver_open t) else zo_seed2 (ver_open t).
Definition opened_party (t j : nat) : nat := (ver_e t + j) mod 3.
Definition opened_share (t j : nat) : vec :=
  if opened_party t j =? 2 then bit (zo_iShare (ver_open t))
  else tape_share (opened_seed t j) (zs_salt sg) t (opened_party t j).
Definition opened_view (t j : nat) : zview :=
  ver_view (ver_e t) (opened_share t)
    (fun j => tape_rand (opened_seed t j) (zs_salt sg) t (opened_party t j))
    (bit (zo_transcript (ver_open t))) (bit p) j.

(** The second opened view is committed with the transcript of the signature as it is. *)
Definition opened_commitment (t j : nat) : bytes :=
  let v := opened_view t j in
  Hi 0 (Hi 4 (opened_seed t j) ++ bytes_of n (iShare v) ++
        (if j =? 0 then bytes_of (3 * r * s) (transcript v) else zo_transcript (ver_open t)) ++
        bytes_of n (oShare v)).
Definition opened_G (t j : nat) : bytes :=
  let v := opened_view t j in
  let l := G_length (opened_party t j) in
  KDF (Hi 5 (opened_seed t j) ++
       (if opened_party t j =? 2 then bytes_of n (iShare v) else []) ++
       (if j =? 0 then bytes_of (3 * r * s) (transcript v) else zo_transcript (ver_open t)) ++
       le16 l) l.

(** Step 3(c) v and vi: values of the three parties. *)
Definition three (t : nat) (a0 a1 a2 : bytes) (j : nat) : bytes :=
  if j =? ver_e t then a0 else if j =? party_after (ver_e t) then a1 else a2.
Definition ver_out (t j : nat) : bytes :=
  three t (bytes_of n (oShare (opened_view t 0))) (bytes_of n (oShare (opened_view t 1)))
    (bytes_of n (vxor (vxor (oShare (opened_view t 0)) (oShare (opened_view t 1))) (bit C))) j.
Definition ver_C (t j : nat) : bytes :=
  three t (opened_commitment t 0) (opened_commitment t 1) (zo_C (ver_open t)) j.
Definition ver_G (t j : nat) : bytes :=
  three t (opened_G t 0) (opened_G t 1) (zo_G (ver_open t)) j.

(** Steps 3(d), 3(e): the recomputed challenge equals the one of the signature, whose padding
    bits are zero. *)
Definition zkbpp_check (fuel : nat) : option bool :=
  match H3 fuel (challenge_string ver_out ver_C ver_G (C ++ p) (zs_salt sg) M) with
  | None => None
  | Some e' =>
      Some (forallb (fun t => nth t e' 0 =? ver_e t) (seq 0 T) && zero_padding (2 * T) (zs_e sg))
  end.
End Verify.

Definition zkbpp_verify (fuel : nat) (C p M sg : bytes) : option bool :=
  match zkbpp_parse sg with
  | None => Some false
  | Some z => zkbpp_check C p M z fuel
  end.

(** Largest signature (6.5.1): every repetition with an input share. *)
Definition zkbpp_max_size : nat :=
  octets (2 * T) + 32 +
  T * (HB + andB + 2 * SB + nB + (if sp_UR sp then SB + andB else 0)).
End Scheme.

(** The LowMC instance of a parameter set: sizes of Table 2, constants of the environment. *)
Definition spec_lowmc (E : env) (P : paramset) (sp : sparams) : lowmc :=
  {| lm_n := sp_n sp; lm_m := sp_s sp; lm_r := sp_r sp;
     lm_K := lm_K (lowmc_of E P); lm_L := lm_L (lowmc_of E P); lm_C := lm_C (lowmc_of E P) |}.
