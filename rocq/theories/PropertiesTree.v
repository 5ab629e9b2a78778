(** Property theorems: seed trees and Merkle trees (tree.c). *)

From Coq Require Import List NArith Arith Bool.
From Verif Require Import Base Params Env Spec Tree SigSpec TreeSpec TreeTop Witness ZkbWitness TreeWitness.
Import ListNotations.

(** C19: opening a seed tree reveals exactly the leaves that are not hidden. *)
Theorem C19_seed_tree_opening : forall E P n root salt rep hide,
  env_bytes_ok E -> 0 < seedSizeBytes P <= 32 -> tree_size_ok n (seedSizeBytes P) ->
  seedSizeBytes P <= length root -> saltSizeBytes P <= length salt ->
  Forall (fun l => l < n) hide -> hide <> [] ->
  exists T t0 t' rv out,
    generateSeeds E P n root salt rep = Ok T /\
    getRevealedNodes T hide = Ok rv /\
    (forall r l, In r rv -> In l hide -> ~ below r (leaf_node T l)) /\
    revealSeedsSize P n hide = Ok (length out) /\
    (forall size, length out <= size -> (N.of_nat size <= INT_MAX)%N ->
       revealSeeds P T hide size = Ok (Some out)) /\
    createTree n (seedSizeBytes P) = Ok t0 /\
    reconstructSeeds E P t0 hide out salt rep = Ok (Some t') /\
    (forall l, l < n -> ~ In l hide -> have_leaf t' l = true /\ getLeaf t' l = getLeaf T l) /\
    (forall l, In l hide -> have_leaf t' l = false).
Proof. exact C19_pf. Qed.
Print Assumptions C19_seed_tree_opening.

Example C19_example : exists P, get_param_set Picnic3_L1 = Some P /\
  env_bytes_ok toy_env /\ 0 < seedSizeBytes P <= 32 /\ tree_size_ok 250 (seedSizeBytes P) /\
  seedSizeBytes P <= length (repeat 5%N 16) /\ saltSizeBytes P <= length ex_salt /\
  Forall (fun l => l < 250) [249; 3; 3; 120] /\ [249; 3; 3; 120] <> [].
Proof.
  destruct (get_param_set Picnic3_L1) as [P|] eqn:HP; [|discriminate HP]. exists P.
  split; [reflexivity|]. split; [exact toy_env_bytes|]. injection HP as <-.
  split; [split; apply Nat.leb_le; reflexivity|].
  split; [split; [apply Nat.leb_le; reflexivity|split; [apply Nat.ltb_lt; reflexivity|discriminate]]|].
  split; [apply Nat.leb_le; reflexivity|]. split; [apply Nat.leb_le; reflexivity|].
  split; [|discriminate]. repeat constructor; apply Nat.ltb_lt; reflexivity.
Qed.

(** C37: the leaves of a seed tree are obtained by repeatedly hashing a seed, its position, the salt
    and the repetition number, taking the left or right half on the way down to the leaf. *)
Theorem C37_seed_derivation : forall E P n root salt rep,
  env_bytes_ok E -> 0 < seedSizeBytes P <= 32 -> 2 <= n -> Nat.log2_up n < 30 ->
  seedSizeBytes P <= length root -> saltSizeBytes P <= length salt ->
  exists T, generateSeeds E P n root salt rep = Ok T /\
    forall l, l < n -> exists path, fst (seed_of E P root salt rep path) = leaf_node T l /\
      getLeaf T l = Ok (snd (seed_of E P root salt rep path)).
Proof. exact seeds_derived_pf. Qed.
Print Assumptions C37_seed_derivation.

(** In a tree with 5 leaves, leaf 4 is reached by going right, left, left. *)
Example C37_example : exists P T, get_param_set Picnic3_L1 = Some P /\
  generateSeeds toy_env P 5 (repeat 5%N 16) ex_salt 2 = Ok T /\
  leaf_node T 4 = fst (seed_of toy_env P (repeat 5%N 16) ex_salt 2 [false; false; true]) /\
  getLeaf T 4 = Ok (snd (seed_of toy_env P (repeat 5%N 16) ex_salt 2 [false; false; true])).
Proof.
  eexists. eexists. split; [reflexivity|]. split; [vm_compute; reflexivity|].
  split; vm_compute; reflexivity.
Qed.

(** C20: from the leaves that are not missing and the opening the verifier recomputes the root. *)
Theorem C20_merkle_opening_complete : forall E P n,
  env_bytes_ok E -> 0 < digestSizeBytes P -> tree_size_ok n (digestSizeBytes P) ->
  forall L salt miss,
  saltSizeBytes P <= length salt -> length L = n ->
  (forall x, In x L -> digestSizeBytes P <= length x) ->
  Forall (fun l => l < n) miss -> length miss < n ->
  exists t0 T out t1 t',
    createTree n (digestSizeBytes P) = Ok t0 /\
    buildMerkleTree E P t0 (map (@Some bytes) L) salt = Ok T /\
    openMerkleTree T miss = Ok out /\
    openMerkleTreeSize P n miss = Ok (length out) /\
    addMerkleNodes t0 miss out = Ok (Some t1) /\
    verifyMerkleTree E P t1 (present_leaves n miss L) salt = Ok (Some t') /\
    root_value t' = root_value T.
Proof. exact C20_pf. Qed.
Print Assumptions C20_merkle_opening_complete.

Example C20_example : exists P, get_param_set Picnic3_L1 = Some P /\
  env_bytes_ok toy_env /\ 0 < digestSizeBytes P /\ tree_size_ok 5 (digestSizeBytes P) /\
  saltSizeBytes P <= length ex_salt /\ length (ex_leaves 5) = 5 /\
  Forall (fun x => digestSizeBytes P <= length x) (ex_leaves 5) /\
  Forall (fun l => l < 5) [4; 1; 0; 1] /\ length [4; 1; 0; 1] < 5.
Proof.
  destruct (get_param_set Picnic3_L1) as [P|] eqn:HP; [|discriminate HP]. exists P.
  split; [reflexivity|]. split; [exact toy_env_bytes|]. injection HP as <-.
  split; [apply Nat.ltb_lt; reflexivity|].
  split; [split; [apply Nat.leb_le; reflexivity|split; [apply Nat.ltb_lt; reflexivity|discriminate]]|].
  split; [apply Nat.leb_le; reflexivity|]. split; [reflexivity|].
  split; [repeat constructor; apply Nat.leb_le; reflexivity|].
  split; [repeat constructor; apply Nat.ltb_lt; reflexivity|apply Nat.ltb_lt; reflexivity].
Qed.

(** C21: an accepted opening that shows a different value of a leaf, or uses a different salt, gives
    a collision: the strings hashed at some node by the committer and by the verifier. *)
Theorem C21_merkle_opening_binding : forall E P n,
  env_bytes_ok E -> 0 < digestSizeBytes P -> tree_size_ok n (digestSizeBytes P) ->
  forall L salt t0 T miss input t1 LD salt' t' l d,
  saltSizeBytes P <= length salt -> saltSizeBytes P <= length salt' ->
  length L = n -> (forall x, In x L -> digestSizeBytes P <= length x) ->
  createTree n (digestSizeBytes P) = Ok t0 ->
  buildMerkleTree E P t0 (map (@Some bytes) L) salt = Ok T ->
  Forall (fun l => l < n) miss -> length miss < n -> length LD = n ->
  (forall l d, nth l LD None = Some d -> digestSizeBytes P <= length d) ->
  addMerkleNodes t0 miss input = Ok (Some t1) ->
  verifyMerkleTree E P t1 LD salt' = Ok (Some t') ->
  root_value t' = root_value T ->
  l < n -> ~ In l miss -> nth l LD None = Some d ->
  firstn (digestSizeBytes P) d <> firstn (digestSizeBytes P) (nth l L []) \/
  firstn (saltSizeBytes P) salt' <> firstn (saltSizeBytes P) salt ->
  exists p, collide E P (Some 3%N) (merkle_string P t' salt' p) (merkle_string P T salt p).
Proof. exact C21_pf. Qed.
Print Assumptions C21_merkle_opening_binding.

(** With a constant hash function openings can be forged. *)
Example C21_example : exists P t0 T t1 t' d,
  get_param_set Picnic3_L1 = Some P /\
  (saltSizeBytes P <= length ex_salt) /\
  createTree 5 (digestSizeBytes P) = Ok t0 /\
  buildMerkleTree (const_env 85) P t0 (map (@Some bytes) (ex_leaves 5)) ex_salt = Ok T /\
  addMerkleNodes t0 [1; 4] (repeat 3%N 64) = Ok (Some t1) /\
  verifyMerkleTree (const_env 85) P t1 (present_leaves 5 [1; 4] (repeat ex_salt 5)) ex_salt = Ok (Some t') /\
  root_value t' = root_value T /\
  nth 3 (present_leaves 5 [1; 4] (repeat ex_salt 5)) None = Some d /\
  firstn (digestSizeBytes P) d <> firstn (digestSizeBytes P) (nth 3 (ex_leaves 5) []).
Proof. exact forged. Qed.

(** C21, two openings of the same root: no matter how the root was made. *)
Theorem C21_merkle_two_openings : forall E P n,
  env_bytes_ok E -> 0 < digestSizeBytes P -> tree_size_ok n (digestSizeBytes P) ->
  forall t0 missA inputA tA LDA saltA tA' missB inputB tB LDB saltB tB' l dA dB,
  saltSizeBytes P <= length saltA -> saltSizeBytes P <= length saltB ->
  createTree n (digestSizeBytes P) = Ok t0 ->
  Forall (fun l => l < n) missA -> length missA < n -> length LDA = n ->
  (forall l d, nth l LDA None = Some d -> digestSizeBytes P <= length d) ->
  addMerkleNodes t0 missA inputA = Ok (Some tA) -> verifyMerkleTree E P tA LDA saltA = Ok (Some tA') ->
  Forall (fun l => l < n) missB -> length missB < n -> length LDB = n ->
  (forall l d, nth l LDB None = Some d -> digestSizeBytes P <= length d) ->
  addMerkleNodes t0 missB inputB = Ok (Some tB) -> verifyMerkleTree E P tB LDB saltB = Ok (Some tB') ->
  root_value tA' = root_value tB' ->
  l < n -> ~ In l missA -> ~ In l missB -> nth l LDA None = Some dA -> nth l LDB None = Some dB ->
  firstn (digestSizeBytes P) dA <> firstn (digestSizeBytes P) dB \/
  firstn (saltSizeBytes P) saltA <> firstn (saltSizeBytes P) saltB ->
  exists p, collide E P (Some 3%N) (merkle_string P tA' saltA p) (merkle_string P tB' saltB p).
Proof. exact C21_two_pf. Qed.
Print Assumptions C21_merkle_two_openings.

(** C21 needs [~ In l miss]: verifyMerkleTree takes leaf data below a revealed inner node without
    checking it.  (Its only caller, verify_picnic3, supplies no data for missing leaves.) *)
Theorem C21_supplied_missing_leaf_refuted : exists P t0 T out t1 t',
  get_param_set Picnic3_L1 = Some P /\
  createTree 4 (digestSizeBytes P) = Ok t0 /\
  buildMerkleTree toy_env P t0 (map (@Some bytes) (ex_leaves 4)) ex_salt = Ok T /\
  openMerkleTree T [0; 1] = Ok out /\
  addMerkleNodes t0 [0; 1] out = Ok (Some t1) /\
  verifyMerkleTree toy_env P t1 ub_LD ex_salt = Ok (Some t') /\
  root_value t' = root_value T /\
  (exists d, nth 0 ub_LD None = Some d /\ d <> nth 0 (ex_leaves 4) []) /\
  forall p, ~ collide toy_env P (Some 3%N) (merkle_string P t' ex_salt p) (merkle_string P T ex_salt p).
Proof. exact missing_leaf_unbound. Qed.
Print Assumptions C21_supplied_missing_leaf_refuted.
