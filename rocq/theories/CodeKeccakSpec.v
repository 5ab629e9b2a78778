(** The situation in which the hash functions are called, in memory. *)

From Coq Require Import List NArith Arith Bool.
From Verif Require Import Base Params Spec MiniC CodeSpec Keccak HashSpec.
Import ListNotations.

(** Consecutive pieces of a string, of given lengths. *)
Fixpoint pieces (l : bytes) (ns : list nat) : list bytes :=
  match ns with [] => [] | k :: ns' => firstn k l :: pieces (skipn k l) ns' end.

(** The round constants as the compiler stores them: 24 words of 8 bytes, least significant byte first. *)
Definition round_constant_bytes : bytes := flat_map (bytes_of_word 8) KeccakRoundConstants.

(** A context at [q]: 200 bytes of any content, 8-aligned; the round constants at [qr]; a list of inputs, a list of rooms
    for outputs (with their contents before). The context is apart from everything else, the outputs are apart from
    each other and from the constants. Inputs may overlap with each other, with outputs and with the constants. *)
Record hash_call (st : state) (q qr : ptr) (ins outs : list (ptr * bytes)) : Prop := {
  hc_context : pv st 0 = [q] /\ snd q mod 8 = 0 /\ exists s, length s = 200 /\ pts (nx st) (mm st) q s;
  hc_constants : pv st 1 = [qr] /\ snd qr mod 8 = 0 /\ pts (nx st) (mm st) qr round_constant_bytes /\ disj q 200 qr 192;
  hc_inputs : pv st 2 = map fst ins /\
    Forall (fun x => pts (nx st) (mm st) (fst x) (snd x) /\ bytes_ok (snd x) /\ short (snd x) /\ disj q 200 (fst x) (length (snd x))) ins;
  hc_outputs : pv st 3 = map fst outs /\
    Forall (fun x => pts (nx st) (mm st) (fst x) (snd x) /\ short (snd x) /\
      disj q 200 (fst x) (length (snd x)) /\ disj (fst x) (length (snd x)) qr 192) outs;
  hc_apart : ForallOrdPairs (fun x y => disj (fst x) (length (snd x)) (fst y) (length (snd y))) outs
}.
