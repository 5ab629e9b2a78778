(** The signature scheme of Section 7 of the Picnic specification, version 3.0
    (/repo/spec/spec-v3.0.pdf), for the parameter sets picnic3-*, written on bits and byte
    strings, independently of the code.  Notation and the parameter table are those of
    ZkbppSpec.v.

    Where the text and the code differ, or the text leaves something open, this file follows the
    code, as marked by "Code:" below. The differences are:
    - the nodes revealed of a seed tree are listed from the leaves upwards (text: from the root
      downwards);
    - the text replaces a revealed node with a single child by its child, repeatedly; the code
      does so only when that child is the last node of the tree;
    - where a node of a Merkle tree has no right child, the text hashes the left child only; the
      code adds a digest of zeros, unless the number of the missing node is beyond the last leaf;
    - the openings of the repetitions are written in the order of the repetitions (text: in the
      order of the challenge);
    - the derivation of salt and root seed hashes the block size n (text: S) and the salt comes
      first;
    - a tape has twice the length of the AND-gate bits rounded to bytes (text: 6rs bits, rounded
      up once);
    - padding bits of the masked key in a signature are not checked. *)

From Coq Require Import List NArith Arith Bool.
From Verif Require Import Base Params Env Spec ZkbppSpec.
Import ListNotations.

Definition member (x : nat) (l : list nat) : bool := existsb (Nat.eqb x) l.

(** The position of the first occurrence of [x]; the length if there is none. *)
Fixpoint position (x : nat) (l : list nat) : nat :=
  match l with [] => 0 | y :: l' => if x =? y then 0 else S (position x l') end.

Definition append_new (l : list nat) (x : nat) : list nat := if member x l then l else l ++ [x].

(** ** Binary trees with [n] leaves: 7.3 *)
Section Trees.
Variable n : nat.

(** All leaves have this distance from the root. Nodes are numbered from 0 (the root), level by
    level; numbers of nodes above no leaf are left out. *)
Definition depth : nat := Nat.log2_up n.
Definition leaf (l : nat) : nat := 2 ^ depth - 1 + l.
Definition parent (i : nat) : nat := (i - 1) / 2.
Definition sibling (i : nat) : nat := if Nat.odd i then i + 1 else i - 1.

(** The ancestor [d] levels up. *)
Fixpoint ancestor (d i : nat) : nat :=
  match d with O => i | S d' => parent (ancestor d' i) end.

(** Leaf [l] is [i] or below it. *)
Definition above (i l : nat) : bool :=
  existsb (fun d => ancestor d (leaf l) =? i) (seq 0 (S depth)).
Definition in_tree (i : nat) : bool := existsb (above i) (seq 0 n).

(** Height above the leaves. *)
Definition height (i : nat) : nat := depth - Nat.log2 (i + 1).

(** *** Seed trees: the nodes to reveal so that the leaves [hide] stay unknown *)

(** Code: a node whose only child is the last node of the tree. *)
Definition only_child (i : nat) : nat := if leaf n =? 2 * i + 2 then 2 * i + 1 else i.

(** Code: leaves first, then level by level. *)
Definition reveal_level (hide : list nat) (z : list nat) (d : nat) : list nat :=
  let level := map (fun l => ancestor d (leaf l)) hide in
  fold_left (fun z i =>
    if in_tree (sibling i) && negb (member (sibling i) level)
    then append_new z (only_child (sibling i)) else z) level z.
Definition reveal (hide : list nat) : list nat :=
  fold_left (reveal_level hide) (seq 0 depth) [].

(** *** Merkle trees: the nodes to give to someone who lacks the leaves [missing] *)
Definition lacking (missing : list nat) (i : nat) : bool :=
  in_tree i && forallb (fun l => negb (above i l) || member l missing) (seq 0 n).

(** The topmost node, other than the root, above leaf [l] with only missing leaves below. *)
Definition top_lacking (missing : list nat) (l : nat) : nat :=
  last (filter (lacking missing) (map (fun d => ancestor d (leaf l)) (seq 0 depth))) (leaf l).
Definition open_nodes (missing : list nat) : list nat :=
  fold_left (fun z l => append_new z (top_lacking missing l)) missing [].
End Trees.

(** ** The scheme *)

(** Opening of a challenged repetition. *)
Record kopen : Type := mkKopen {
  ko_seeds : bytes;        (* the seeds of all parties but one *)
  ko_aux : bytes;          (* auxiliary bits, when the last party is opened *)
  ko_key : bytes;          (* masked key *)
  ko_msgs : bytes;         (* broadcast messages of the unopened party *)
  ko_C : bytes             (* its commitment *)
}.

Record ksig : Type := mkKsig {
  ks_h : bytes; ks_salt : bytes; ks_iSeeds : bytes; ks_Cv : bytes; ks_open : list kopen
}.

Section Scheme.
Variable E : env.            (* for the SHAKE functions *)
Variable sp : sparams.       (* with n = 3s *)
Variable Lm : lowmc.         (* the LowMC instance *)
Variable K0inv : matrix.        (* inverse of the first key matrix *)
Variable Linv : nat -> matrix.  (* inverses of the linear layers *)

Let n := sp_n sp.
Let s := sp_s sp.
Let r := sp_r sp.
Let T := sp_T sp.
Let u := sp_u sp.
Let N' := sp_N sp.
Let nB := octets (sp_n sp).
Let andB := octets (3 * sp_r sp * sp_s sp).
Let SB := octets (sp_S sp).
Let HB := octets (sp_H sp).

(** The hash function H has no prefix here. *)
Definition Hp (x : bytes) : bytes := KDF E sp x HB.

(** *** Seed trees: 7.3.1 *)
Definition child_seed (x salt : bytes) (t i : nat) : bytes :=
  let b := KDF E sp ([1%N] ++ x ++ salt ++ le16 t ++ le16 (parent i)) (2 * SB) in
  if Nat.odd i then sub_bytes b 0 SB else sub_bytes b SB SB.

(** The seed of node [i], at most [k] levels below the root. *)
Fixpoint seed_node (root salt : bytes) (t k i : nat) : bytes :=
  match k with
  | O => root
  | S k' => if i =? 0 then root else child_seed (seed_node root salt t k' (parent i)) salt t i
  end.
Definition seed_at (m : nat) (root salt : bytes) (t i : nat) : bytes :=
  seed_node root salt t (depth m) i.
Definition seed_leaf (m : nat) (root salt : bytes) (t l : nat) : bytes :=
  seed_at m root salt t (leaf m l).
Definition reveal_seeds (m : nat) (root salt : bytes) (t : nat) (hide : list nat) : bytes :=
  flat_map (seed_at m root salt t) (reveal m hide).

(** The seed of a node from the seeds [info] of the nodes [z]. *)
Fixpoint recover_node (z : list nat) (info salt : bytes) (t k i : nat) : bytes :=
  if member i z then sub_bytes info (position i z * SB) SB
  else match k with
       | O => []
       | S k' => child_seed (recover_node z info salt t k' (parent i)) salt t i
       end.
Definition recover_leaf (m : nat) (hide : list nat) (info salt : bytes) (t l : nat) : bytes :=
  recover_node (reveal m hide) info salt t (depth m) (leaf m l).

(** *** Merkle trees: 7.3.2 *)

(** Code: see above. *)
Definition missing_right (m i : nat) : bytes :=
  if 2 * i + 2 <? leaf m m then repeat 0%N HB else [].
Definition merkle_hash (m : nat) (salt : bytes) (i : nat) (f : nat -> bytes) : bytes :=
  Hi E sp 3 (f (2 * i + 1) ++ (if in_tree m (2 * i + 2) then f (2 * i + 2) else missing_right m i)
             ++ salt ++ le16 i).

(** The node [i] at height [k]. *)
Fixpoint merkle_node (m : nat) (salt : bytes) (leaves : nat -> bytes) (k i : nat) : bytes :=
  match k with
  | O => leaves (i - leaf m 0)
  | S k' => merkle_hash m salt i (merkle_node m salt leaves k')
  end.
Definition merkle_root (m : nat) (salt : bytes) (leaves : nat -> bytes) : bytes :=
  merkle_node m salt leaves (depth m) 0.
Definition open_merkle (m : nat) (salt : bytes) (leaves : nat -> bytes) (missing : list nat) : bytes :=
  flat_map (fun i => merkle_node m salt leaves (height m i) i) (open_nodes m missing).

(** The same with the values [info] of the nodes [z] given. *)
Fixpoint remerkle_node (m : nat) (salt : bytes) (z : list nat) (info : bytes)
         (leaves : nat -> bytes) (k i : nat) : bytes :=
  if member i z then sub_bytes info (position i z * HB) HB
  else match k with
       | O => leaves (i - leaf m 0)
       | S k' => merkle_hash m salt i (remerkle_node m salt z info leaves k')
       end.

(** *** The challenge: 7.2.2 *)

(** The [w]-bit integers of a digest, first bit lowest. *)
Definition chunk (w : nat) (h : bytes) (i : nat) : nat :=
  fold_right (fun j a => (if bit h (i * w + j) then 1 else 0) + 2 * a) 0 (seq 0 w).
Definition chunks (w : nat) (h : bytes) : list nat := map (chunk w h) (seq 0 (8 * HB / w)).

(** Collect [u] values from h, H1(h), ...; the digest after the last one used is kept. *)
Definition collect_C (l : list nat) (c : nat) : list nat :=
  if (length l <? u) && (c <? T) && negb (member c l) then l ++ [c] else l.
Definition collect_P (l : list nat) (c : nat) : list nat :=
  if (length l <? u) && (c <? N') then l ++ [c] else l.
Fixpoint collect (f : list nat -> nat -> list nat) (w fuel : nat) (h : bytes) (l : list nat)
  : option (list nat * bytes) :=
  if u <=? length l then Some (l, h)
  else match fuel with
       | O => None
       | S fuel' => collect f w fuel' (Hi E sp 1 h) (fold_left f (chunks w h) l)
       end.

(** The challenged repetitions and their unopened parties. *)
Definition challenge (fuel : nat) (h : bytes) : option (list nat * list nat) :=
  match collect collect_C (Nat.log2_up T) fuel h [] with
  | None => None
  | Some (LC, h') =>
      match collect collect_P (Nat.log2_up N') fuel h' [] with
      | None => None
      | Some (LP, _) => Some (LC, LP)
      end
  end.
Definition unopened (LC LP : list nat) (t : nat) : nat := nth (position t LC) LP 0.
Definition not_in (LC : list nat) : list nat := filter (fun t => negb (member t LC)) (seq 0 T).

(** *** Preprocessing: 7.4.1, 7.4.2 *)

(** Code: length. *)
Definition ktape (seed salt : bytes) (t j : nat) : bytes :=
  KDF E sp (seed ++ salt ++ le16 t ++ le16 j) (2 * andB).

Section Tapes.
Variable tp : nat -> vec.    (* the tapes of the parties *)

(** Round [i] uses the bits from 2ni: n shares of masks, then n shares for the gates. *)
Definition mask (i : nat) : vec :=
  if i <? r then fun k => xsum N' (fun j => tp j (2 * n * i + k)) else vzero.
Definition key_mask : vec := matvec n K0inv (mask 0).
(** The mask after the S-boxes. *)
Definition sbox_mask (i : nat) : vec :=
  matvec n (Linv i) (vxor (mask (S i)) (matvec n (lm_K Lm (S i)) key_mask)).
(** What the masks of the gate outputs have to be for the S-boxes to map mask [a] to mask [b]. *)
Definition gate_mask (a b : vec) (q : nat) : bool :=
  let k := q / 3 in
  match q mod 3 with
  | 0 => xorb (b (3 * k)) (xorb (a (3 * k)) (xorb (a (3 * k + 1)) (a (3 * k + 2))))
  | 1 => xorb (b (3 * k + 2)) (a (3 * k + 2))
  | _ => xorb (b (3 * k + 1)) (xorb (a (3 * k + 1)) (a (3 * k + 2)))
  end.
(** The auxiliary bit of gate [q] of round [i]: the share of the last party. *)
Definition aux_bit (i q : nat) : bool :=
  xorb (xorb (and_left (mask i) q && and_right (mask i) q) (gate_mask (mask i) (sbox_mask i) q))
       (xsum (N' - 1) (fun j => tp j (2 * n * i + n + q))).
Definition aux_bytes : bytes := bytes_of (n * r) (fun p => aux_bit (p / n) (p mod n)).
End Tapes.

(** Tapes in which the gate bits of the last party are [aux]. *)
Definition set_aux (tp : nat -> vec) (aux : nat -> nat -> bool) : nat -> vec :=
  fun j p => if (j =? N' - 1) && (p / (2 * n) <? r) && (n <=? p mod (2 * n))
             then aux (p / (2 * n)) (p mod (2 * n) - n) else tp j p.

(** *** Online phase: 7.4.3 *)
Section Online.
Variable tp : nat -> vec.
Variable hid : option (nat * vec).   (* unopened party and its messages *)
Variable x p : vec.                  (* masked key, plaintext *)

Definition message (v : vec) (i j q : nat) : bool :=
  let own := let m := fun k => tp j (2 * n * i + k) in
             xorb (xorb (and_left v q && and_right m q) (and_right v q && and_left m q))
                  (tp j (2 * n * i + n + q)) in
  match hid with
  | None => own
  | Some (h, ms) => if j =? h then ms (n * i + q) else own
  end.
Definition masked_gate (v : vec) (i q : nat) : bool :=
  xorb (xsum N' (fun j => message v i j q)) (and_left v q && and_right v q).

(** The masked state before round [i]. *)
Fixpoint masked_state (i : nat) : vec :=
  match i with
  | O => vxor (matvec n (lm_K Lm 0) x) p
  | S i' => let v := masked_state i' in mpc_round sp Lm true x i' v (masked_gate v i')
  end.
Definition message_bytes (j : nat) : bytes :=
  bytes_of (n * r) (fun g => message (masked_state (g / n)) (g / n) j (g mod n)).
End Online.

(** *** Commitments: 7.2.1 *)
Definition commit_seed (seed aux salt : bytes) (t j : nat) : bytes :=
  Hp (seed ++ (if j =? N' - 1 then aux else []) ++ salt ++ le16 t ++ le16 j).
Definition commit_row (C : nat -> bytes) : bytes := Hp (flat_map C (seq 0 N')).
Definition commit_view (key : bytes) (ms : nat -> bytes) : bytes :=
  Hp (key ++ flat_map ms (seq 0 N')).
Definition challenge_hash (Ch : nat -> bytes) (root salt pk M : bytes) : bytes :=
  Hp (flat_map Ch (seq 0 T) ++ root ++ salt ++ pk ++ M).

(** *** Signing: 7.1 *)
Section Sign.
Variables sk C p : bytes.    (* secret key and public key, nB bytes each *)
Variable M : bytes.          (* message *)

(** Code: the 16-bit integer is n; order. *)
Definition krandom : bytes := KDF E sp (sk ++ M ++ (C ++ p) ++ le16 n) (32 + SB).
Definition ksalt : bytes := sub_bytes krandom 0 32.
Definition kroot : bytes := sub_bytes krandom 32 SB.

Definition iSeed (t : nat) : bytes := seed_leaf T kroot ksalt 0 t.
Definition kseed (t j : nat) : bytes := seed_leaf N' (iSeed t) ksalt t j.
Definition ktapes0 (t : nat) : nat -> vec := fun j => bit (ktape (kseed t j) ksalt t j).
Definition kaux (t : nat) : bytes := aux_bytes (ktapes0 t).
Definition ktapes (t : nat) : nat -> vec := set_aux (ktapes0 t) (aux_bit (ktapes0 t)).
Definition kkey (t : nat) : bytes := bytes_of n (vxor (key_mask (ktapes0 t)) (bit sk)).
Definition kmsgs (t j : nat) : bytes := message_bytes (ktapes t) None (bit (kkey t)) (bit p) j.
Definition kC (t j : nat) : bytes := commit_seed (kseed t j) (kaux t) ksalt t j.
Definition kCv (t : nat) : bytes := commit_view (kkey t) (kmsgs t).
Definition kh : bytes :=
  challenge_hash (fun t => commit_row (kC t)) (merkle_root T ksalt kCv) ksalt (C ++ p) M.

(** 7.6.1. Code: order of the repetitions. *)
Definition kround_bytes (LC LP : list nat) (t : nat) : bytes :=
  if member t LC then
    let j := unopened LC LP t in
    reveal_seeds N' (iSeed t) ksalt t [j] ++ (if j =? N' - 1 then [] else kaux t) ++
    kkey t ++ kmsgs t j ++ kC t j
  else [].

Definition kkw_sign (fuel : nat) : option bytes :=
  match challenge fuel kh with
  | None => None
  | Some (LC, LP) =>
      Some (kh ++ ksalt ++ reveal_seeds T kroot ksalt 0 LC ++ open_merkle T ksalt kCv (not_in LC) ++
            flat_map (kround_bytes LC LP) (seq 0 T))
  end.
End Sign.

(** *** Deserialization: 7.6.2 *)

(** Opening of one repetition. Padding bits of auxiliary bits and messages must be zero. *)
Definition kread_open (j : nat) (b : bytes) : option (kopen * bytes) :=
  match read (length (reveal N' [j]) * SB) b with None => None | Some (sd, b) =>
  match (if j =? N' - 1 then Some ([], b) else read andB b) with None => None | Some (ax, b) =>
  match read nB b with None => None | Some (key, b) =>
  match read andB b with None => None | Some (ms, b) =>
  match read HB b with None => None | Some (c, b) =>
  if ((j =? N' - 1) || zero_padding (n * r) ax) && zero_padding (n * r) ms
  then Some (mkKopen sd ax key ms c, b) else None
  end end end end end.

Fixpoint kread_rounds (LC LP ts : list nat) (b : bytes) : option (list kopen * bytes) :=
  match ts with
  | [] => Some ([], b)
  | t :: ts' =>
      match (if member t LC then kread_open (unopened LC LP t) b
             else Some (mkKopen [] [] [] [] [], b)) with
      | None => None
      | Some (o, b) =>
          match kread_rounds LC LP ts' b with
          | None => None
          | Some (os, b) => Some (o :: os, b)
          end
      end
  end.

(** The part after the challenge hash [h] and the salt; nothing may follow. *)
Definition kparse (LC LP : list nat) (h salt b : bytes) : option ksig :=
  match read (length (reveal T LC) * SB) b with None => None | Some (is, b) =>
  match read (length (open_nodes T (not_in LC)) * HB) b with None => None | Some (cv, b) =>
  match kread_rounds LC LP (seq 0 T) b with
  | Some (os, []) => Some (mkKsig h salt is cv os)
  | _ => None
  end end end.

(** *** Verification: 7.2 *)
Section Verify.
Variables C p : bytes.
Variable M : bytes.
Variables LC LP : list nat.
Variable sg : ksig.

Definition vopen (t : nat) : kopen := nth t (ks_open sg) (mkKopen [] [] [] [] []).
Definition vhid (t : nat) : nat := unopened LC LP t.

(** Repetitions that are not challenged are recomputed from their seeds. *)
Definition viSeed (t : nat) : bytes := recover_leaf T LC (ks_iSeeds sg) (ks_salt sg) 0 t.
Definition vseed (t j : nat) : bytes :=
  if member t LC then recover_leaf N' [vhid t] (ko_seeds (vopen t)) (ks_salt sg) t j
  else seed_leaf N' (viSeed t) (ks_salt sg) t j.
Definition vtp (t : nat) : nat -> vec := fun j => bit (ktape (vseed t j) (ks_salt sg) t j).
Definition vaux (t : nat) : bytes :=
  if member t LC then ko_aux (vopen t) else aux_bytes (vtp t).
Definition vC (t j : nat) : bytes :=
  if member t LC && (j =? vhid t) then ko_C (vopen t)
  else commit_seed (vseed t j) (vaux t) (ks_salt sg) t j.

(** Online phase of the challenged repetitions. *)
Definition vtapes (t : nat) : nat -> vec :=
  set_aux (vtp t) (fun i q => bit (ko_aux (vopen t)) (n * i + q)).
Definition vhidden (t : nat) : option (nat * vec) := Some (vhid t, bit (ko_msgs (vopen t))).
Definition vmsgs (t j : nat) : bytes :=
  if j =? vhid t then ko_msgs (vopen t)
  else message_bytes (vtapes t) (vhidden t) (bit (ko_key (vopen t))) (bit p) j.
Definition voutput (t : nat) : bytes :=
  bytes_of n (masked_state (vtapes t) (vhidden t) (bit (ko_key (vopen t))) (bit p) r).
Definition vCv (t : nat) : bytes := commit_view (ko_key (vopen t)) (vmsgs t).
Definition vroot : bytes :=
  remerkle_node T (ks_salt sg) (open_nodes T (not_in LC)) (ks_Cv sg) vCv (depth T) 0.

Definition kcheck : bool :=
  forallb (fun t => eqb_bytes (voutput t) C) LC &&
  eqb_bytes (ks_h sg) (challenge_hash (fun t => commit_row (vC t)) vroot (ks_salt sg) (C ++ p) M).
End Verify.

Definition kkw_verify (fuel : nat) (C p M b : bytes) : option bool :=
  match read HB b with None => Some false | Some (h, b) =>
  match read 32 b with None => Some false | Some (salt, b) =>
  match challenge fuel h with
  | None => None
  | Some (LC, LP) =>
      Some match kparse LC LP h salt b with
           | None => false
           | Some sg => kcheck C p M LC LP sg
           end
  end end end.
End Scheme.

(** The inverse matrices of a parameter set, from the environment. *)
Definition spec_K0inv (E : env) (P : paramset) : matrix :=
  mat_of_bytes (stateSizeWords P) (KMatrixInv E P 0).
Definition spec_Linv (E : env) (P : paramset) (i : nat) : matrix :=
  mat_of_bytes (stateSizeWords P) (LMatrixInv E P i).
