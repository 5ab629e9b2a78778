(** Vocabulary for rewinding a ZKB++ signer: one hash input, several answers. *)

From Coq Require Import List NArith Arith Bool.
From Verif Require Import Base Params Env Spec ZkbppSpec.
Import ListNotations.

(** The same environment, except that the hash function answers [h] on the input [x]. *)
Definition reprogram (E : env) (x : bytes) (h : bool -> nat -> bytes) : env := {|
  xof := fun b m n => if eqb_bytes m x then h b n else xof E b m n;
  uninit := uninit E;
  LMatrix := LMatrix E;
  LMatrixInv := LMatrixInv E;
  KMatrix := KMatrix E;
  KMatrixInv := KMatrixInv E;
  RConstant := RConstant E
|}.

Section F.
Variable E : env.
Variable sp : sparams.
Variable Lm : lowmc.
Variable p : bytes.

(** The string under the commitment to opened party [k] (0: the challenged one, 1: the one after it) of
    repetition [t], as the verifier recomputes it (6.3, step 3(c)). *)
Definition opened_string (z : zsig) (t k : nat) : bytes :=
  let v := opened_view E sp Lm p z t k in
  Hi E sp 4 (opened_seed z t k) ++ bytes_of (sp_n sp) (iShare v) ++
  (if k =? 0 then bytes_of (3 * sp_r sp * sp_s sp) (transcript v) else zo_transcript (ver_open z t)) ++
  bytes_of (sp_n sp) (oShare v).

(** Sum of the key shares of the challenged parties of three openings of repetition [t]. *)
Definition shares_sum (z : nat -> zsig) (t : nat) : vec :=
  vxor (vxor (opened_share E sp (z 0) t 0) (opened_share E sp (z 1) t 0)) (opened_share E sp (z 2) t 0).
End F.
