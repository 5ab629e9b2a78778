(** Model of print_signature: picnic.c:624-783.

    What is printed is a list of lines.  The text of the labels is not modelled: a label is a
    constructor, with the numbers that [snprintf] puts into it. *)

From Coq Require Import List NArith Arith Bool.
From Verif Require Import Base Params Env LowMC Picnic1 Tree Picnic3.
Import ListNotations.

Inductive label : Type :=
| L_challenge | L_salt | L_b (t : nat) | L_G (t : nat) | L_transcript | L_seed1 | L_seed2 | L_inputShare
| L_iSeedInfo | L_cvInfo | L_seedInfo | L_aux | L_C (c p : nat) | L_maskedInput | L_msgs.

Inductive line : Type :=
| InvalidParameters                   (* "Invalid parameters" *)
| InvalidSignature                    (* "Invalid signature; deserialization fails" *)
| Blank
| Hex (l : label) (data : bytes)      (* the bytes in hexadecimal *)
| Iteration (t : nat)                 (* "Iteration t: %u" *)
| Challenge (t e : nat)               (* "e_%u: %u" *)
| ChallengeC (l : list nat)           (* "challenge C: " and the numbers *)
| ChallengeP (l : list nat)
| Instance (u c p : nat).             (* "u = %u, MPC instance index c = %u, unopened party index = %u" *)

Section Print.
Variable E : env.

(** picnic_impl.c:40-49 [printHex]: reads [len] bytes at [data]. *)
Definition printHex (l : label) (data : bytes) (len : nat) : res line :=
  b <- slice data 0 len ;; Ok (Hex l b).

(** [memcpy(field, sigBytes, len); sigBytes += len; printHex(label, field, len)]. *)
Definition copy_print (l : label) (field sigBytes : bytes) (off len : nat) : res (line * nat) :=
  b <- slice sigBytes off len ;;
  f <- blit field 0 b ;;
  x <- printHex l f len ;;
  Ok (x, off + len).

(** picnic.c:738-777: one round; the result is the lines and the new offset. *)
Definition print_round (P : paramset) (challengeBits sigBytes : bytes) (pr : proof) (off i : nat)
  : res (list line * nat) :=
  challenge <- getChallenge challengeBits i ;;
  '(b, off) <- copy_print (L_b i) (p_view3Commitment pr) sigBytes off (digestSizeBytes P) ;;
  '(g, off) <-
     (if is_UR (transf P) then
        let len := if challenge =? 0 then UnruhGWithInputBytes P else UnruhGWithoutInputBytes P in
        '(x, off) <- copy_print (L_G i) (p_view3UnruhG pr) sigBytes off len ;;
        Ok ([x], off)
      else Ok ([], off)) ;;
  '(tr, off) <- copy_print L_transcript (p_communicatedBits pr) sigBytes off (andSizeBytes P) ;;
  '(s1, off) <- copy_print L_seed1 (p_seed1 pr) sigBytes off (seedSizeBytes P) ;;
  '(s2, off) <- copy_print L_seed2 (p_seed2 pr) sigBytes off (seedSizeBytes P) ;;
  '(inp, off) <-
     (if (challenge =? 1) || (challenge =? 2) then
        '(x, off) <- copy_print L_inputShare (p_inputShare pr) sigBytes off (stateSizeBytes P) ;;
        Ok ([x], off)
      else Ok ([], off)) ;;
  Ok ([Iteration i; Challenge i challenge; b] ++ g ++ [tr; s1; s2] ++ inp ++ [Blank], off).

Fixpoint print_rounds (P : paramset) (n i : nat) (challengeBits sigBytes : bytes) (proofs : list proof) (off : nat)
  : res (list line) :=
  match n with
  | O => Ok []
  | S n' =>
      pr <- rd proofs i ;;
      '(l, off) <- print_round P challengeBits sigBytes pr off i ;;
      r <- print_rounds P n' (S i) challengeBits sigBytes proofs off ;;
      Ok (l ++ r)
  end.

(** picnic.c:677-689: the lines of the [i]-th opened round. *)
Definition print_opened (P : paramset) (sig : signature2) (i : nat) : res (list line) :=
  c <- rd (g_challengeC sig) i ;;
  p <- rd (g_challengeP sig) i ;;
  q <- rd_proof (g_proofs sig) c ;;
  seedInfo <- printHex L_seedInfo (q_seedInfo q) (length (q_seedInfo q)) ;;
  aux <- printHex L_aux (q_aux q) (andSizeBytes P) ;;
  com <- printHex (L_C c p) (q_C q) (digestSizeBytes P) ;;
  inp <- printHex L_maskedInput (q_input q) (stateSizeBytes P) ;;
  msgs <- printHex L_msgs (q_msgs q) (stateSizeBytes P + andSizeBytes P) ;;
  Ok [Instance i c p; seedInfo; aux; com; inp; msgs; Blank].

(** picnic.c:624-694 [print_signature2], for a Picnic3 parameter set. *)
Definition print_signature2 (fuel : nat) (sigBytes : bytes) (params : N) : res (list line) :=
  match get_param_set params with
  | None => Ok [InvalidParameters]
  | Some P =>
      s <- deserializeSignature2 E P fuel sigBytes ;;
      match s with
      | None => Ok [InvalidSignature]
      | Some sig =>
          C <- slice (g_challengeC sig) 0 (numOpenedRounds P) ;;
          Pl <- slice (g_challengeP sig) 0 (numOpenedRounds P) ;;
          salt <- printHex L_salt (g_salt sig) (saltSizeBytes P) ;;
          iSeedInfo <- printHex L_iSeedInfo (g_iSeedInfo sig) (length (g_iSeedInfo sig)) ;;
          cvInfo <- printHex L_cvInfo (g_cvInfo sig) (length (g_cvInfo sig)) ;;
          l <- mapM_seq (numOpenedRounds P) 0 (print_opened P sig) ;;
          Ok ([ChallengeC C; ChallengeP Pl; salt; iSeedInfo; cvInfo; Blank] ++ concat l)
      end
  end.

(** picnic.c:696-783 [print_signature]. *)
Definition print_signature (fuel : nat) (sigBytes : bytes) (params : N) : res (list line) :=
  if is_picnic3 params then print_signature2 fuel sigBytes params
  else
    match get_param_set params with
    | None => Ok [InvalidParameters]
    | Some P =>
        s <- deserializeSignature E P sigBytes ;;
        match s with
        | None => Ok [InvalidSignature]
        | Some sig =>
            '(ch, off) <- copy_print L_challenge (s_challengeBits sig) sigBytes 0 (numBytes (2 * numMPCRounds P)) ;;
            cb <- slice sigBytes 0 (numBytes (2 * numMPCRounds P)) ;;
            challengeBits <- blit (s_challengeBits sig) 0 cb ;;
            b <- slice sigBytes off (saltSizeBytes P) ;;
            l <- print_rounds P (numMPCRounds P) 0 challengeBits sigBytes (s_proofs sig) (off + saltSizeBytes P) ;;
            Ok ([ch; Hex L_salt b; Blank] ++ l)
        end
    end.
End Print.
