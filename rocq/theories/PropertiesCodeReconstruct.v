(** Rebuilding seed trees as a program on memory with pointers. *)

From Coq Require Import List NArith Arith Bool Lia.
From Verif Require Import Base Params Env Spec MiniC CodeSpec HashSpec CodeZkbSpec ZkbppSpec KkwSpec CodeReconstruct CodeTreeSpec CodeReconstructSpec.
From Verif Require Import BaseFacts ParamFacts ZkbppProofs CodeWitness Witness CodeTreeThm CodeReconstructProofs.
Import ListNotations.

(** C99: createTree and reconstructSeeds on memory, with SHAKE by the code of sha3/, run to the end and change only the nodes and the two
    arrays of flags of the new tree. With fewer bytes than the revealed seeds take, -1 is returned. With that many bytes, whatever they
    are, 0 is returned, every leaf that is not hidden holds the seed that the document derives from them, and its flag is set; that
    of a hidden leaf is not. If the bytes were revealed from a tree, these are the leaves of that tree. *)
Theorem C99_reconstruct_seeds_code : forall U E p P sp n rep st q hide input salt,
  locals_ok U -> env_bytes_ok E -> get_param_set p = Some P -> is_picnic3 p = true -> table2 p = Some sp -> 2 <= n <= 1024 ->
  Forall (fun l => l < n) hide -> hide <> [] -> again_call P n st q input salt -> length input <= length (reveal n hide) * seedSizeBytes P ->
  exists st' t, run U (c_seeds_again P n rep (length input) (reveal n hide)) st = Some (st', t) /\ nx st' = nx st /\
    chg (nx st) (mm st) (mm st') (tree_parts n (seedSizeBytes P) q) /\
    (length input < length (reveal n hide) * seedSizeBytes P -> iv st' 5 = 1) /\
    (length input = length (reveal n hide) * seedSizeBytes P -> iv st' 5 = 0 /\
      (forall l, l < n -> ~ In l hide -> CodeZkbSpec.holds st' (q (node_count n - n + l)) (recover_leaf (with_shake E) sp n hide input salt rep l)) /\
      (forall root, length root = seedSizeBytes P -> input = reveal_seeds (with_shake E) sp n root salt rep hide ->
        forall l, l < n -> ~ In l hide -> CodeZkbSpec.holds st' (q (node_count n - n + l)) (seed_leaf (with_shake E) sp n root salt rep l)) /\
      (exists b, CodeZkbSpec.holds st' (q (node_count n)) b /\ marks_open n hide b)).
Proof. exact again_code. Qed.
Print Assumptions C99_reconstruct_seeds_code.

(** Every parameter set of Picnic3, eight leaves of which two are hidden, any four seeds; and one byte too few. *)
Example C99_example : forall p P input salt, get_param_set p = Some P -> is_picnic3 p = true -> bytes_ok input -> bytes_ok salt -> length salt = saltSizeBytes P ->
  length input = 4 * seedSizeBytes P ->
  let n := 8 in let hide := [2; 7] in
  locals_ok zero_locals /\ env_bytes_ok toy_env /\ (exists sp, table2 p = Some sp) /\ Forall (fun l => l < n) hide /\ hide <> [] /\
  reveal n hide = [10; 13; 3; 5] /\
  again_call P n (again_state P n input salt) (tree_place n (seedSizeBytes P)) input salt /\
  again_call P n (again_state P n (tl input) salt) (tree_place n (seedSizeBytes P)) (tl input) salt /\
  length input = length (reveal n hide) * seedSizeBytes P /\ length (tl input) < length (reveal n hide) * seedSizeBytes P.
Proof.
  intros p P input salt HP H3 B3 B4 L4 Li n hide. destruct (table2_conforms _ P HP) as (sp & Ht & _). pose proof (proj1 (seed_sizes p P HP)) as Hs.
  assert (Er : reveal n hide = [10; 13; 3; 5]) by (vm_compute; reflexivity). rewrite Er. cbn [length].
  split; [exact zero_locals_ok|]. split; [exact toy_env_bytes|]. split; [exists sp; exact Ht|]. split; [repeat constructor|]. split; [discriminate|]. split; [reflexivity|].
  split; [apply again_called; auto; lia|]. split; [apply again_called; auto; [lia|]; destruct input; [constructor|inversion B3; assumption]|].
  split; [lia|]. destruct input; cbn [tl length] in *; lia.
Qed.
