(** Revealing seeds as a program on memory with pointers. *)

From Coq Require Import List NArith Arith Bool Lia.
From Verif Require Import Base Params Env Spec MiniC CodeSpec HashSpec CodeZkbSpec ZkbppSpec KkwSpec CodeReveal CodeTreeSpec.
From Verif Require Import BaseFacts ParamFacts ZkbppProofs CodeWitness Witness CodeTreeThm CodeRevealProofs.
Import ListNotations.

(** C100: generateSeeds and revealSeeds on memory, with SHAKE by the code of sha3/, run to the end and change only the output and the new
    tree. The output starts with the seeds that the document reveals for these hidden leaves, their length is returned, and the rest of the
    output is unchanged. The leaves hold the seeds of the document. *)
Theorem C100_reveal_seeds_code : forall U E p P sp n rep st q hide root salt qb buf,
  locals_ok U -> env_bytes_ok E -> get_param_set p = Some P -> is_picnic3 p = true -> table2 p = Some sp -> 2 <= n <= 1024 ->
  Forall (fun l => l < n) hide -> seeds_call P n st q root salt -> length root = seedSizeBytes P ->
  pv st 6 = [qb] -> reads st (tree_parts n (seedSizeBytes P) q) qb buf -> length (reveal n hide) * seedSizeBytes P <= length buf ->
  exists st' t, run U (c_seeds_revealed P n rep (length buf) (reveal n hide)) st = Some (st', t) /\ nx st' = nx st /\
    chg (nx st) (mm st) (mm st') ((qb, length buf) :: tree_parts n (seedSizeBytes P) q) /\
    (let out := reveal_seeds (with_shake E) sp n root salt rep hide in
     iv st' 5 = length out /\ CodeZkbSpec.holds st' qb (out ++ skipn (length out) buf)) /\
    (forall l, l < n -> CodeZkbSpec.holds st' (q (node_count n - n + l)) (seed_leaf (with_shake E) sp n root salt rep l)).
Proof. exact reveal_code. Qed.
Print Assumptions C100_reveal_seeds_code.

(** Every parameter set of Picnic3, eight leaves of which two are hidden, and an output with room for one seed more. *)
Example C100_example : forall p P root salt buf, get_param_set p = Some P -> is_picnic3 p = true -> bytes_ok root -> bytes_ok salt -> bytes_ok buf ->
  length root = seedSizeBytes P -> length salt = saltSizeBytes P -> length buf = 5 * seedSizeBytes P ->
  let n := 8 in let hide := [2; 7] in let st := reveal_state P n root salt buf in let q := tree_place n (seedSizeBytes P) in
  locals_ok zero_locals /\ env_bytes_ok toy_env /\ (exists sp, table2 p = Some sp) /\ Forall (fun l => l < n) hide /\
  reveal n hide = [10; 13; 3; 5] /\ seeds_call P n st q root salt /\ pv st 6 = [(6, 0)] /\ reads st (tree_parts n (seedSizeBytes P) q) (6, 0) buf /\
  length (reveal n hide) * seedSizeBytes P <= length buf.
Proof.
  intros p P root salt buf HP H3 B3 B4 B6 L3 L4 Lb n hide st q. destruct (table2_conforms _ P HP) as (sp & Ht & _). pose proof (proj1 (seed_sizes p P HP)) as Hs.
  assert (Er : reveal n hide = [10; 13; 3; 5]) by (vm_compute; reflexivity). rewrite Er. cbn [length].
  destruct (reveal_called P n root salt buf) as (C1 & C2 & C3); auto; try lia.
  split; [exact zero_locals_ok|]. split; [exact toy_env_bytes|]. split; [exists sp; exact Ht|]. split; [repeat constructor|]. split; [reflexivity|].
  split; [exact C1|]. split; [exact C2|]. split; [exact C3|lia].
Qed.
