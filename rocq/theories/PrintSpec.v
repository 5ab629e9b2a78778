(** What print_signature is expected to print for a ZKB++ signature. *)

From Coq Require Import List NArith Arith Bool.
From Verif Require Import Base Params Picnic1 Print.
Import ListNotations.

(** The data bytes of the lines, in order. *)
Fixpoint shown (l : list line) : bytes :=
  match l with
  | [] => []
  | Hex _ b :: l => b ++ shown l
  | _ :: l => shown l
  end.

(** The lines of round [t] with challenge [e] whose fields are those of [pr]. *)
Definition round_lines (P : paramset) (t e : nat) (pr : proof) : list line :=
  [Iteration t; Challenge t e; Hex (L_b t) (p_view3Commitment pr)] ++
  (if is_UR (transf P)
   then [Hex (L_G t) (firstn (if e =? 0 then UnruhGWithInputBytes P else UnruhGWithoutInputBytes P) (p_view3UnruhG pr))]
   else []) ++
  [Hex L_transcript (p_communicatedBits pr); Hex L_seed1 (p_seed1 pr); Hex L_seed2 (p_seed2 pr)] ++
  (if e =? 0 then [] else [Hex L_inputShare (p_inputShare pr)]) ++
  [Blank].

(** [ls] are the lines for the parsed signature [s]; [e t] is the challenge of round [t]. *)
Definition lines_of (P : paramset) (s : signature) (e : nat -> nat) (ls : list line) : Prop :=
  exists prs, (forall t, t < numMPCRounds P -> nth_error (s_proofs s) t = Some (prs t)) /\
    ls = [Hex L_challenge (s_challengeBits s); Hex L_salt (s_salt s); Blank] ++
         concat (map (fun t => round_lines P t (e t) (prs t)) (seq 0 (numMPCRounds P))).
