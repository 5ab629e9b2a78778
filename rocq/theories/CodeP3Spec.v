(** The situations in which the multiparty computations of Picnic3 are called. *)

From Coq Require Import List NArith Arith Bool.
From Verif Require Import Base Params Env Spec MiniC CodeSpec CodeZkbSpec.
Import ListNotations.

(** What the computation of the auxiliary bits writes: the tape of the last party and, if the caller asks for them, the
    inputs (the mask of the key). *)
Definition aux_writes (P : paramset) (qt : ptr) (qi : option ptr) : list (ptr * nat) :=
  (qt, 2 * andSizeBytes P) :: match qi with Some q => [(q, stateSizeBytes P)] | None => [] end.

(** The caller: variable 0 holds the addresses of the sixteen tapes [tl], 1 of the inputs, 2-4 of the constants. *)
Record aux_call (E : env) (P : paramset) (st : state) (tl : list bytes) (qt : ptr) (qi : option ptr) : Prop := {
  ac_pos : iv st 0 = 0;
  ac_flag : iv st 1 = match qi with Some _ => 1 | None => 0 end;
  ac_len : length tl = 16 /\ forall i, i < 16 -> length (nth i tl []) = 2 * andSizeBytes P;
  ac_last : nth_error (pv st 0) 15 = Some qt /\ holds st qt (nth 15 tl []);
  ac_tapes : forall i, i < 15 -> exists q, nth_error (pv st 0) i = Some q /\ reads st (aux_writes P qt qi) q (nth i tl []);
  ac_inputs : forall q, qi = Some q -> pv st 1 = [q] /\ exists l, holds st q l /\ length l = stateSizeBytes P;
  ac_apart : apart (aux_writes P qt qi);
  ac_K : constants st 2 (numRounds P + 1) (KMatrix E P) (aux_writes P qt qi);
  ac_KI : constants st 3 1 (KMatrixInv E P) (aux_writes P qt qi);
  ac_LI : constants st 4 (numRounds P) (LMatrixInv E P) (aux_writes P qt qi)
}.

(** What the online computation writes: the messages of the sixteen parties and the masks of the state. *)
Definition online_writes (P : paramset) (qm : nat -> ptr) (qs : ptr) : list (ptr * nat) :=
  map (fun i => (qm i, andSizeBytes P)) (seq 0 16) ++ [(qs, 2 * stateSizeBits P)].

(** The caller: variable 0 holds the address of the masked key [mk], 1 of the tapes [tl], 2 of the masks, 3 of the
    messages [ml], 4 and 5 of plaintext and public key, 6-8 of the constants; index 0 and 1 are the positions, 2 is the
    number of the unopened party plus one (0: all are known, as for the signer), 3 the number of masks. *)
Record online_call (E : env) (P : paramset) (st : state) (tl ml : list bytes) (uo : option nat) (mk pt pub : bytes) (qm : nat -> ptr) (qs : ptr) : Prop := {
  oc_pos : iv st 0 = 0 /\ iv st 1 = 0;
  oc_unopened : iv st 2 = match uo with Some u => S u | None => 0 end /\ forall u, uo = Some u -> u < 16;
  oc_words : iv st 3 = stateSizeBits P;
  oc_mk : exists q, pv st 0 = [q] /\ reads st (online_writes P qm qs) q mk /\ aligned q /\ stateSizeBits P <= 8 * length mk;
  oc_tapes : length tl = 16 /\ forall i, i < 16 ->
    exists q, nth_error (pv st 1) i = Some q /\ reads st (online_writes P qm qs) q (nth i tl []) /\ length (nth i tl []) = 2 * andSizeBytes P;
  oc_masks : pv st 2 = [qs] /\ snd qs mod 2 = 0 /\ exists l, holds st qs l /\ length l = 2 * stateSizeBits P;
  oc_msgs : length ml = 16 /\ forall i, i < 16 ->
    nth_error (pv st 3) i = Some (qm i) /\ holds st (qm i) (nth i ml []) /\ length (nth i ml []) = andSizeBytes P;
  oc_pt : exists q, pv st 4 = [q] /\ reads st (online_writes P qm qs) q pt /\ aligned q /\ 4 * stateSizeWords P <= length pt;
  oc_pub : exists q, pv st 5 = [q] /\ reads st (online_writes P qm qs) q pub /\ stateSizeBytes P <= length pub;
  oc_apart : apart (online_writes P qm qs);
  oc_K : constants st 6 (numRounds P + 1) (KMatrix E P) (online_writes P qm qs);
  oc_L : constants st 7 (numRounds P) (LMatrix E P) (online_writes P qm qs);
  oc_C : constants st 8 (numRounds P) (RConstant E P) (online_writes P qm qs)
}.

(** The data that a run shows. *)
Definition shown (t : list event) : list N := flat_map (fun e => match e with Shown d => [d] | _ => [] end) t.
