(** What [verify] of picnic_impl.c does with the output shares of the third party, in the language of MiniC. *)

From Coq Require Import List NArith Arith Bool.
From Verif Require Import Base Params MiniC CodeLowMC CodeZkb.
Import ListNotations.
Local Open Scope c_scope.

(** picnic_impl.c:643-672, the loop of [verify] over the rounds, of which only the statements on [view3Output] are
    kept. Pointers: 0 view3Output, arrays 1 view1s[.].outputShare, 2 view2s[.].outputShare, 3 pubKey. Index: 0 i. *)
Definition c_view3 (P : paramset) : stmt :=
  For 0 (IC 0) (IC (numMPCRounds P)) 1
    (c_xor_three (P0 0) (PV 1 (IV 0)) (PV 2 (IV 0)) (P0 3) (IC (stateSizeBytes P)) ;;
     PSet 0 [PAdd (P0 0) (IC (stateSizeBytes P))]).
