(** Openings of one ZKB++ repetition for every challenge, and a case of rewinding. *)

From Coq Require Import List NArith Arith Bool Lia ZifyBool ZifyNat ZifyN.
From Verif Require Import Base Params Env Spec LowMC Picnic1 Api ApiSpec SigSpec BaseFacts ParamFacts ApiFacts LowMCFacts LowMCInj
  Hint ZkbMpc Zkb ZkbChal ZkbApi ZkbProps ZkbppSpec ZkbppProofs ZkbppProofs2 ZkbppProofs4 SoundSpec ZkbBind ForkSpec ZkbFork Witness ZkbWitness.
Import ListNotations.

Lemma sub_len b o k : o + k <= length b -> length (sub_bytes b o k) = k.
Proof. intros H. unfold sub_bytes. rewrite firstn_length, skipn_length. lia. Qed.

Section H.
Variable E : env.
Variable P : paramset.
Variable sp : sparams.
Hypothesis HP1 : wfP1 P.
Hypothesis CF : conforms P sp.
Hypothesis HE : env_bytes_ok E.
Let HP : wfP P := w1_wfP P HP1.
Let Lm := spec_lowmc E P sp.
Let T := sp_T sp.
Let n := sp_n sp.
Let r := sp_r sp.
Let s := sp_s sp.
Variables sk C p M : bytes.
Hypothesis Hrel : forall i, i < n -> bit C i = lowmc_enc (lowmc_of E P) (bit sk) (bit p) i.

Notation seed' := (seed E sp sk C p M).
Notation salt' := (salt E sp sk C p M).
Notation share' := (key_share E sp sk C p M).
Notation view' := (sign_view E sp Lm sk C p M).

Definition honest_open (t e : nat) : zopen :=
  mkZopen (sign_C E sp Lm sk C p M t (party_before e)) (if sp_UR sp then sign_G E sp Lm sk C p M t (party_before e) else [])
    (bytes_of (3 * r * s) (transcript (view' t (party_after e)))) (seed' t e) (seed' t (party_after e))
    (if e =? 0 then [] else bytes_of n (iShare (view' t 2))).

Definition honest_bytes (e : list nat) : bytes :=
  challenge_bytes sp e ++ salt' ++ flat_map (fun t => sign_round_bytes E sp Lm sk C p M t (nth t e 0)) (seq 0 T).

Lemma seed_len t j : t < T -> j < 3 -> length (seed' t j) = octets (sp_S sp).
Proof.
  intros Ht Hj. unfold seed. apply sub_len. unfold randomness. rewrite (KDF_len E sp HE). fold T. nia.
Qed.
Lemma salt_len : length salt' = 32.
Proof. unfold salt. apply sub_len. unfold randomness. rewrite (KDF_len E sp HE). lia. Qed.

Lemma pb_lt e : party_before e < 3.
Proof. apply Nat.mod_upper_bound. lia. Qed.
Lemma pa_lt e : party_after e < 3.
Proof. apply Nat.mod_upper_bound. lia. Qed.

Lemma honest_round t e rest : t < T -> e < 3 ->
  read_round sp e (sign_round_bytes E sp Lm sk C p M t e ++ rest) = Some (honest_open t e, rest).
Proof.
  intros Ht He. unfold read_round, sign_round_bytes. rewrite <- !app_assoc.
  rewrite read_app by (unfold sign_C, commitment; apply (Hi_len E sp HE)).
  assert (H2 : forall y, (if sp_UR sp then read (G_length sp (party_before e))
            ((if sp_UR sp then sign_G E sp Lm sk C p M t (party_before e) else []) ++ y)
      else Some ([], (if sp_UR sp then sign_G E sp Lm sk C p M t (party_before e) else []) ++ y)) =
     Some (if sp_UR sp then sign_G E sp Lm sk C p M t (party_before e) else [], y)).
  { intros y. destruct (sp_UR sp); [|reflexivity]. apply read_app. unfold sign_G, G_commitment. apply (KDF_len E sp HE). }
  rewrite H2. rewrite read_app by apply bytes_of_len. rewrite read_app by (apply seed_len; auto).
  rewrite read_app by (apply seed_len; [auto|apply pa_lt]).
  unfold honest_open. destruct (e =? 0) eqn:E0; [reflexivity|].
  rewrite read_app by apply bytes_of_len. cbn [orb].
  replace (zero_padding _ _) with true; [reflexivity|]. symmetry. apply zero_padding_iff. intros i Hi.
  rewrite (proj2 (proj2 (bytes_of_spec (sp_n sp) _)) i). replace (i <? sp_n sp) with false by lia. reflexivity.
Qed.

Lemma honest_rounds (f : nat -> nat) k : forall i, (forall t, i <= t < i + k -> t < T /\ f t < 3) ->
  read_rounds sp (map f (seq i k)) (flat_map (fun t => sign_round_bytes E sp Lm sk C p M t (f t)) (seq i k)) =
  Some (map (fun t => honest_open t (f t)) (seq i k)).
Proof.
  induction k as [|k IH]; intros i Hf; [reflexivity|]. cbn [seq map flat_map read_rounds].
  destruct (Hf i ltac:(lia)) as [H1 H2]. rewrite honest_round by auto. rewrite IH by (intros t Ht; apply Hf; lia). reflexivity.
Qed.

Section Ch.
Variable e : list nat.
Hypothesis Le : length e = T.
Hypothesis He : Forall (fun v => v < 3) e.

Definition honest : zsig := mkZsig (challenge_bytes sp e) salt' (map (fun t => honest_open t (nth t e 0)) (seq 0 T)).

Lemma e_lt t : t < T -> nth t e 0 < 3.
Proof. intros Ht. rewrite Forall_forall in He. apply He. apply nth_In. lia. Qed.

Lemma enc_trit t : t < T -> encoded_trit (challenge_bytes sp e) t = nth t e 0.
Proof.
  intros Ht. rewrite encoded_trit_eq. assert (HT : numMPCRounds P = T) by apply (cf_T P sp CF).
  apply (chalv_of P sp CF e); rewrite ?HT; auto.
Qed.

Lemma honest_parse : zkbpp_parse sp (honest_bytes e) = Some honest.
Proof.
  unfold zkbpp_parse, honest_bytes. rewrite read_app by (unfold challenge_bytes; apply bytes_of_len).
  rewrite read_app by apply salt_len. fold T.
  replace (forallb _ _) with true.
  2:{ symmetry. apply forallb_forall. intros t Ht. apply in_seq in Ht. rewrite enc_trit by lia. pose proof (e_lt t ltac:(lia)). lia. }
  replace (map (encoded_trit (challenge_bytes sp e)) (seq 0 T)) with (map (fun t => nth t e 0) (seq 0 T)).
  2:{ apply map_ext_in. intros t Ht. apply in_seq in Ht. symmetry. apply enc_trit. lia. }
  rewrite (honest_rounds (fun t => nth t e 0)); [reflexivity|]. intros t Ht. split; [lia|]. apply e_lt. lia.
Qed.

Section R.
Variable t : nat.
Hypothesis Ht : t < T.
Let c := nth t e 0.
Let z := honest.

Lemma h_e : ver_e z t = c.
Proof. apply enc_trit. exact Ht. Qed.
Lemma c_lt : c < 3.
Proof. apply e_lt. exact Ht. Qed.
Lemma h_open : ver_open z t = honest_open t c.
Proof.
  unfold ver_open, z, honest. cbn [zs_open].
  rewrite (nth_indep _ _ ((fun t => honest_open t (nth t e 0)) 0)) by (rewrite map_length, seq_length; exact Ht).
  rewrite (map_nth (fun t => honest_open t (nth t e 0))), seq_nth by exact Ht. reflexivity.
Qed.
Let q (k : nat) := (c + k) mod 3.
Lemma h_party k : opened_party z t k = q k.
Proof. unfold opened_party. rewrite h_e. reflexivity. Qed.
Lemma q0 : q 0 = c.
Proof. unfold q. rewrite Nat.add_0_r. apply Nat.mod_small, c_lt. Qed.
Lemma h_seed k : k < 2 -> opened_seed z t k = seed' t (q k).
Proof.
  intros Hk. unfold opened_seed. rewrite h_open. unfold honest_open. cbn [zo_seed1 zo_seed2].
  destruct k as [|[|k]]; [rewrite q0| |lia]; reflexivity.
Qed.
Lemma h_share k l : k < 2 -> l < n -> opened_share E sp z t k l = share' t (q k) l.
Proof.
  intros Hk Hl. unfold opened_share. rewrite h_party, h_seed by auto. unfold key_share at 1.
  destruct (Nat.eqb_spec (q k) 2) as [H2|H2].
  - rewrite h_open. unfold honest_open. cbn [zo_iShare].
    replace (c =? 0) with false. 2:{ symmetry. apply Nat.eqb_neq. intros Hc. unfold q in H2. rewrite Hc in H2. destruct k as [|[|k]]; cbn in H2; lia. }
    rewrite (proj2 (proj2 (bytes_of_spec n _)) l), (proj2 (Nat.ltb_lt l n) Hl). unfold sign_view, mpc_view. cbn [iShare].
    unfold key_share. cbn [Nat.eqb]. reflexivity.
  - reflexivity.
Qed.
Definition rnd' (j : nat) : vec := tape_rand E sp (seed' t j) salt' t j.
Lemma h_rand k l : k < 2 -> tape_rand E sp (opened_seed z t k) (zs_salt z) t (opened_party z t k) l = rnd' (q k) l.
Proof. intros Hk. rewrite h_party, h_seed by auto. reflexivity. Qed.

Notation st i k := (ver_state sp Lm (ver_e z t) (opened_share E sp z t)
    (fun j => tape_rand E sp (opened_seed z t j) (zs_salt z) t (opened_party z t j))
    (bit (zo_transcript (ver_open z t))) (bit p) i k).
Notation ms i j := (mpc_state sp Lm (share' t) rnd' (bit p) i j).

Lemma q1 : q 1 = party_after (q 0).
Proof. rewrite q0. reflexivity. Qed.

Lemma h_const k : k < 2 -> ver_const (ver_e z t) k = (q k =? 0).
Proof.
  intros Hk. rewrite h_e. unfold ver_const, q. pose proof c_lt as Hc.
  destruct c as [|[|[|c']]]; [| | |lia]; destruct k as [|[|k]]; try lia; reflexivity.
Qed.

Lemma s_eq : numSboxes P = s. Proof. apply (cf_s P sp CF). Qed.
Lemma s_n : 3 * s <= n.
Proof. unfold n. rewrite <- s_eq, <- (cf_n P sp CF). apply (wf_m P HP). Qed.

Lemma h_tr g : g < 3 * r * s -> bit (zo_transcript (ver_open z t)) g = transcript (view' t (q 1)) g.
Proof.
  intros Hg. rewrite h_open. unfold honest_open. cbn [zo_transcript].
  rewrite (proj2 (proj2 (bytes_of_spec (3 * r * s) _)) g), (proj2 (Nat.ltb_lt _ _) Hg). rewrite q1, q0. reflexivity.
Qed.

Lemma idx a k x : a < s -> k = 3 * a + x -> x < 3 -> k < n.
Proof. pose proof s_n. lia. Qed.

Lemma and_ext u v g : veq n u v -> g < 3 * s -> and_left u g = and_left v g /\ and_right u g = and_right v g.
Proof.
  intros Huv Hg. pose proof s_n. assert (Hd : g / 3 < s) by (apply Nat.div_lt_upper_bound; lia).
  unfold and_left, and_right. destruct (g mod 3) as [|[|k]]; split; apply Huv; lia.
Qed.

Lemma sbox_ext u v a b l : veq n u v -> (forall g, g < 3 * s -> a g = b g) -> l < n -> mpc_sbox sp u a l = mpc_sbox sp v b l.
Proof.
  intros Huv Hab Hl. unfold mpc_sbox. fold s. destruct (Nat.ltb_spec l (3 * s)) as [H|H]; [|apply Huv; exact Hl].
  pose proof s_n. assert (Hd : l / 3 < s) by (apply Nat.div_lt_upper_bound; lia).
  rewrite !Huv, !Hab by lia. reflexivity.
Qed.

Lemma h_gate i k g : i < r -> k < 2 -> g < 3 * s -> (forall k, k < 2 -> veq n (st i k) (ms i (q k))) ->
  ver_gate sp (fun j => tape_rand E sp (opened_seed z t j) (zs_salt z) t (opened_party z t j))
    (bit (zo_transcript (ver_open z t))) (fun k => st i k) i k g =
  gate_out sp rnd' (fun j => ms i j) i (q k) g.
Proof.
  intros Hi Hk Hg IH. unfold ver_gate. destruct (Nat.eqb_spec k 0) as [->|H0].
  - unfold gate_out. cbv zeta. rewrite <- q1. rewrite !h_rand by lia.
    destruct (and_ext _ _ g (IH 0 ltac:(lia)) Hg) as [A0 B0]. destruct (and_ext _ _ g (IH 1 ltac:(lia)) Hg) as [A1 B1].
    rewrite A0, B0, A1, B1. reflexivity.
  - assert (k = 1) as -> by lia. fold s. rewrite h_tr by nia. unfold sign_view, mpc_view. cbn [transcript]. fold s.
    assert (Hs0 : 3 * s <> 0) by lia.
    replace ((3 * s * i + g) / (3 * s)) with i by (symmetry; rewrite Nat.mul_comm, Nat.div_add_l, Nat.div_small by lia; lia).
    replace ((3 * s * i + g) mod (3 * s)) with g by (symmetry; rewrite Nat.add_comm, Nat.mul_comm, Nat.mod_add, Nat.mod_small by lia; lia).
    reflexivity.
Qed.

Lemma h_state i : i <= r -> forall k, k < 2 -> veq n (st i k) (ms i (q k)).
Proof.
  induction i as [|i IH]; intros Hi k Hk l Hl.
  - cbn [ver_state mpc_state]. unfold vxor. rewrite h_const by auto. f_equal. apply matvec_ext. intros a Ha. apply h_share; auto.
  - cbn [ver_state mpc_state]. cbv zeta. unfold mpc_round, vxor. rewrite h_const by auto. f_equal; [f_equal|].
    + apply matvec_ext. intros a Ha. apply sbox_ext; auto; [apply IH; [lia|auto]|].
      intros g Hg. apply h_gate; auto; try lia. intros k' Hk'. apply IH; [lia|auto].
    + apply matvec_ext. intros a Ha. apply h_share; auto.
Qed.

Lemma h_view k : k < 2 ->
  let v := opened_view E sp Lm p z t k in let w := view' t (q k) in
  veq n (iShare v) (iShare w) /\ (k = 0 -> veq (3 * r * s) (transcript v) (transcript w)) /\ veq n (oShare v) (oShare w).
Proof.
  intros Hk. cbv zeta. unfold opened_view, ver_view, sign_view, mpc_view. cbn [iShare transcript oShare].
  split; [intros l Hl; apply h_share; auto|]. split.
  - intros -> g Hg. fold s.
    assert (Hs0 : s <> 0) by (intros H0; rewrite H0 in Hg; lia).
    apply h_gate; auto.
    + apply Nat.div_lt_upper_bound; [lia|]. nia.
    + apply Nat.mod_upper_bound. lia.
    + intros k' Hk'. apply h_state; auto. apply Nat.lt_le_incl. apply Nat.div_lt_upper_bound; [lia|]. nia.
  - apply h_state; auto.
Qed.

Lemma h_commit k : k < 2 -> opened_commitment E sp Lm p z t k = sign_C E sp Lm sk C p M t (q k).
Proof.
  intros Hk. destruct (h_view k Hk) as (H1 & H2 & H3). unfold opened_commitment, sign_C, commitment. cbv zeta.
  rewrite h_seed by auto. do 3 f_equal; [apply bytes_of_ext; exact H1|]. f_equal; [|apply bytes_of_ext; exact H3].
  destruct (Nat.eqb_spec k 0) as [H0|H0]; [apply bytes_of_ext; exact (H2 H0)|].
  assert (k = 1) as -> by lia. rewrite h_open. unfold honest_open. cbn [zo_transcript]. rewrite q1, q0. reflexivity.
Qed.

Lemma h_G k : k < 2 -> opened_G E sp Lm p z t k = sign_G E sp Lm sk C p M t (q k).
Proof.
  intros Hk. destruct (h_view k Hk) as (H1 & H2 & H3). unfold opened_G, sign_G, G_commitment. cbv zeta.
  rewrite h_seed, h_party by auto. do 2 f_equal.
  f_equal; [destruct (q k =? 2); [apply bytes_of_ext; exact H1|reflexivity]|]. f_equal.
  destruct (Nat.eqb_spec k 0) as [H0|H0]; [apply bytes_of_ext; exact (H2 H0)|].
  assert (k = 1) as -> by lia. rewrite h_open. unfold honest_open. cbn [zo_transcript]. rewrite q1, q0. reflexivity.
Qed.

Lemma sum_out l : l < n -> xorb (xorb (oShare (view' t 0) l) (oShare (view' t 1) l)) (oShare (view' t 2) l) = bit C l.
Proof.
  intros Hl. rewrite Hrel by exact Hl. unfold sign_view, mpc_view. cbn [oShare].
  set (x := share' t). set (rn := fun j => tape_rand E sp (seed' t j) salt' t j).
  pose proof (fun j => gates_spec E P sp HP1 CF x rn (bit p) j) as G.
  pose proof (gates3_correct (lowmc_of E P) (bit p) (x 0) (x 1) (x 2) _ _ _ _ _ _ (wf_m P HP)
    (G 0 ltac:(lia)) (G 1 ltac:(lia)) (G 2 ltac:(lia))) as Hg. cbv zeta in Hg.
  change (lm_n (lowmc_of E P)) with (stateSizeBits P) in Hg. rewrite (cf_n P sp CF) in Hg. specialize (Hg l Hl).
  change (lm_r (lowmc_of E P)) with (numRounds P) in Hg. rewrite (cf_r P sp CF) in Hg. fold r in Hg.
  pose proof (fun j => mpc_state_hst E P sp HP1 CF x rn (bit p) r j l) as Hs. rewrite (cf_n P sp CF) in Hs.
  unfold vxor at 1 2 in Hg.
  assert (H0 := Hs 0 Hl). assert (H1 := Hs 1 Hl). assert (H2 := Hs 2 Hl). cbn [Nat.eqb] in H0, H1, H2.
  change (nxt 2) with 0 in Hg. change (nxt 1) with 2 in Hg. change (nxt 0) with 1 in Hg.
  rewrite <- H0, <- H1, <- H2 in Hg. etransitivity; [exact Hg|].
  apply (lowmc_enc_ext (lowmc_of E P)).
  - apply (wf_m P HP).
  - intros a _. unfold vxor, x, key_share. cbn [Nat.eqb]. unfold vxor.
    destruct (tape_share E sp (seed' t 0) salt' t 0 a), (tape_share E sp (seed' t 1) salt' t 1 a), (bit sk a); reflexivity.
  - intros a _. reflexivity.
  - change (lm_n (lowmc_of E P)) with (stateSizeBits P). rewrite (cf_n P sp CF). exact Hl.
Qed.

Lemma h_three {j} : j < 3 -> j = q 0 \/ j = q 1 /\ j <> q 0 \/ j = party_before c /\ j <> q 0 /\ j <> q 1.
Proof.
  intros Hj. pose proof c_lt as Hc. unfold q, party_before. destruct c as [|[|[|c']]]; [| | |lia];
  destruct j as [|[|[|j]]]; try lia; cbn; lia.
Qed.

Lemma h_out j : j < 3 -> ver_out E sp Lm C p z t j = bytes_of n (oShare (view' t j)).
Proof.
  intros Hj. destruct (h_view 0 ltac:(lia)) as (_ & _ & A). destruct (h_view 1 ltac:(lia)) as (_ & _ & B).
  unfold ver_out, three. rewrite h_e. change (party_after c) with (q 1). rewrite <- q0.
  destruct (h_three Hj) as [-> |[[-> Hn]|(-> & Hn & Hn')]].
  - rewrite Nat.eqb_refl. apply bytes_of_ext. exact A.
  - apply Nat.eqb_neq in Hn. rewrite Hn, Nat.eqb_refl. apply bytes_of_ext. exact B.
  - apply Nat.eqb_neq in Hn, Hn'. rewrite Hn, Hn'. apply bytes_of_ext. intros l Hl. unfold vxor.
    rewrite (A l Hl), (B l Hl), <- sum_out by exact Hl. pose proof c_lt as Hc. unfold q, party_before.
    destruct c as [|[|[|c']]]; [| | |lia]; cbn [Nat.add Nat.modulo Nat.divmod fst snd];
      change (0 mod 3) with 0; change (1 mod 3) with 1; change (2 mod 3) with 2; change (3 mod 3) with 0; change (4 mod 3) with 1;
      destruct (oShare (view' t 0) l), (oShare (view' t 1) l), (oShare (view' t 2) l); reflexivity.
Qed.

Lemma h_C j : j < 3 -> ver_C E sp Lm p z t j = sign_C E sp Lm sk C p M t j.
Proof.
  intros Hj. unfold ver_C, three. rewrite h_e. change (party_after c) with (q 1). rewrite <- q0.
  destruct (h_three Hj) as [-> |[[-> Hn]|(-> & Hn & Hn')]].
  - rewrite Nat.eqb_refl. apply h_commit. lia.
  - apply Nat.eqb_neq in Hn. rewrite Hn, Nat.eqb_refl. apply h_commit. lia.
  - apply Nat.eqb_neq in Hn, Hn'. rewrite Hn, Hn', h_open. reflexivity.
Qed.
Lemma h_Gs j : j < 3 -> sp_UR sp = true -> ver_G E sp Lm p z t j = sign_G E sp Lm sk C p M t j.
Proof.
  intros Hj Hu. unfold ver_G, three. rewrite h_e. change (party_after c) with (q 1). rewrite <- q0.
  destruct (h_three Hj) as [-> |[[-> Hn]|(-> & Hn & Hn')]].
  - rewrite Nat.eqb_refl. apply h_G. lia.
  - apply Nat.eqb_neq in Hn. rewrite Hn, Nat.eqb_refl. apply h_G. lia.
  - apply Nat.eqb_neq in Hn, Hn'. rewrite Hn, Hn', h_open. unfold honest_open. cbn [zo_G]. rewrite Hu. reflexivity.
Qed.
End R.

Definition sign_string : bytes :=
  challenge_string sp (fun t j => bytes_of n (oShare (view' t j))) (sign_C E sp Lm sk C p M) (sign_G E sp Lm sk C p M) (C ++ p) salt' M.

Lemma parties_eq (f g : nat -> nat -> bytes) : (forall t j, t < T -> j < 3 -> f t j = g t j) -> all_parties sp f = all_parties sp g.
Proof.
  intros H. unfold all_parties. fold T. assert (Hl : forall l, (forall t, In t l -> t < T) ->
    flat_map (fun t => f t 0 ++ f t 1 ++ f t 2) l = flat_map (fun t => g t 0 ++ g t 1 ++ g t 2) l).
  { induction l as [|a l IH]; intros Hl; [reflexivity|]. cbn [flat_map]. rewrite IH by (intros; apply Hl; right; auto).
    rewrite !(H a) by (auto; apply Hl; left; auto). reflexivity. }
  apply Hl. intros t Ht. apply in_seq in Ht. lia.
Qed.

Lemma honest_string : zstring E P sp C p M honest = sign_string.
Proof.
  unfold zstring, sign_string, challenge_string. f_equal; [apply parties_eq; intros; apply h_out; auto|].
  f_equal; [apply parties_eq; intros; apply h_C; auto|]. f_equal.
  destruct (sp_UR sp) eqn:Hu; [|reflexivity]. apply parties_eq. intros. apply h_Gs; auto.
Qed.
End Ch.
End H.

(** ** Rewinding the signer under the constant hash function *)
Definition answer (c : nat) : N := match c with 0 => 0%N | 1 => 85%N | _ => 170%N end.
Definition answer_trits (sp : sparams) (c : nat) : list nat :=
  flat_map (digest_trits sp) (repeat (answer c) (octets (sp_H sp)) :: repeat (repeat 85%N (octets (sp_H sp))) 7).
Definition answers_b (p : N) : bool :=
  match table2 p with
  | Some sp => forallb (fun c => (sp_T sp <=? length (answer_trits sp c)) && (nth 0 (firstn (sp_T sp) (answer_trits sp c)) 7 =? c) && (0 <? sp_T sp)) [0; 1; 2]
  | None => true
  end.

Lemma answers p P sp c : get_param_set p = Some P -> is_picnic3 p = false -> table2 p = Some sp -> c < 3 ->
  sp_T sp <= length (answer_trits sp c) /\ nth 0 (firstn (sp_T sp) (answer_trits sp c)) 7 = c /\ 0 < sp_T sp.
Proof.
  intros HP H3 Ht Hc.
  assert (H : is_picnic3 p || answers_b p = true).
  { revert p P HP H3 Ht. intros p P HP _ _. revert p P HP.
    apply (params_forall (fun p P => is_picnic3 p || answers_b p)). vm_compute. reflexivity. }
  rewrite H3 in H. cbn [orb] in H. unfold answers_b in H. rewrite Ht in H. rewrite forallb_forall in H.
  specialize (H c). assert (Hin : In c [0; 1; 2]) by (destruct c as [|[|[|c]]]; cbn; auto; lia).
  specialize (H Hin). apply andb_true_iff in H. destruct H as [H H0]. apply andb_true_iff in H. destruct H as [H1 H2].
  apply Nat.leb_le in H1. apply Nat.eqb_eq in H2. apply Nat.ltb_lt in H0. auto.
Qed.

Section W.
Variable P : paramset.
Variable p : N.
Variable sp : sparams.
Hypothesis HP : get_param_set p = Some P.
Hypothesis H3 : is_picnic3 p = false.
Hypothesis Htab : table2 p = Some sp.
Variable X : bytes.
Hypothesis LX : octets (sp_H sp) < length X.

Definition h_of (c : nat) : bool -> nat -> bytes := fun _ k => repeat (answer c) k.
Definition Ew (c : nat) : env := reprogram (const_env 85) (1%N :: X) (h_of c).

Lemma answer_byte c : byte (answer c).
Proof. destruct c as [|[|c]]; reflexivity. Qed.

Lemma Ew_bytes c : env_bytes_ok (Ew c).
Proof.
  destruct (const_env_bytes 85 eq_refl) as [A B]. split; [|exact B].
  intros b m k. unfold Ew, reprogram. cbn [xof]. destruct (eqb_bytes m _); [|apply A].
  unfold h_of. split; [apply repeat_length|apply bytes_ok_repeat, answer_byte].
Qed.

Lemma Ew_X c : Hi (Ew c) sp 1 X = repeat (answer c) (octets (sp_H sp)).
Proof.
  unfold Hi, KDF, Ew, reprogram. cbn [xof app]. rewrite (proj2 (eqb_bytes_eq (1%N :: X) (1%N :: X)) eq_refl). reflexivity.
Qed.

Lemma Ew_other c d : length d = octets (sp_H sp) -> Hi (Ew c) sp 1 d = repeat 85%N (octets (sp_H sp)).
Proof.
  intros Hd. unfold Hi, KDF, Ew, reprogram. cbn [xof app]. destruct (eqb_bytes (1%N :: d) (1%N :: X)) eqn:Hb; [|reflexivity].
  apply eqb_bytes_eq in Hb. injection Hb as Hb. rewrite Hb in Hd. lia.
Qed.

Lemma Ew_digests c k : forall d, length d = octets (sp_H sp) ->
  digests (Ew c) sp (S k) d = d :: repeat (repeat 85%N (octets (sp_H sp))) k.
Proof.
  induction k as [|k IH]; intros d Hd; [reflexivity|]. cbn [digests]. rewrite Ew_other by exact Hd.
  f_equal. change (digests (Ew c) sp (S k) (repeat 85%N (octets (sp_H sp))) = repeat (repeat 85%N (octets (sp_H sp))) (S k)).
  rewrite IH by apply repeat_length. reflexivity.
Qed.

Definition ew (c : nat) : list nat := firstn (sp_T sp) (answer_trits sp c).

Lemma Ew_H3 c : c < 3 -> ZkbppSpec.H3 (Ew c) sp 8 X = Some (ew c).
Proof.
  intros Hc. unfold ZkbppSpec.H3. rewrite Ew_X. rewrite (Ew_digests c 7) by apply repeat_length.
  change (flat_map (digest_trits sp) (repeat (answer c) (octets (sp_H sp)) :: repeat (repeat 85%N (octets (sp_H sp))) 7)) with (answer_trits sp c).
  cbv zeta. destruct (answers p P sp c HP H3 Htab Hc) as (H & _). apply Nat.leb_le in H. rewrite H. reflexivity.
Qed.
End W.

Lemma rewind_witness p P sp sk pk msg : get_param_set p = Some P -> is_picnic3 p = false -> table2 p = Some sp ->
  constants_ok (const_env 85) P -> pk_params pk = p -> pk_wf pk -> padding_zero P (pk_ciphertext pk) ->
  lowmc_relation (const_env 85) P sk (pk_plaintext pk) (pk_ciphertext pk) ->
  exists sg h X, let Ec c := reprogram (const_env 85) (1%N :: X) (h c) in
  (forall c, c < 3 -> env_bytes_ok (Ec c)) /\ (forall c, c < 3 -> bytes_ok (sg c)) /\
  (forall c, c < 3 -> picnic_verify (Ec c) 8 pk msg (sg c) = Ok true) /\
  (forall c, c < 3 -> zkb_string (Ec c) P sp (pk_ciphertext pk) (pk_plaintext pk) msg (sg c) = X) /\
  0 < sp_T sp /\ forall c, c < 3 -> encoded_trit (sg c) 0 = c.
Proof.
  intros HP H3 Htab HC Hp W Hpad Hrel. pose proof (get_param_set_wfP1 _ _ HP H3) as HP1.
  pose proof (const_env_bytes 85 eq_refl) as HE.
  destruct (table2_conforms p P HP) as (sp' & Htab' & CF). assert (sp' = sp) as -> by congruence.
  pose proof (w1_wfP P HP1) as Hw.
  set (C := block P (pk_ciphertext pk)). set (pt := block P (pk_plaintext pk)).
  assert (Hb : forall b q, q < sp_n sp -> bit (block P b) q = bit b q).
  { intros b q Hq. unfold block. apply bit_firstn. rewrite (wf_sB P Hw), (cf_n P sp CF). pose proof (numBytes_spec (sp_n sp)). lia. }
  assert (Hr : forall i, i < sp_n sp -> bit C i = lowmc_enc (lowmc_of (const_env 85) P) (bit sk) (bit pt) i).
  { intros i Hi. unfold C. rewrite Hb by exact Hi. destruct Hrel as [Hrel _]. rewrite Hrel by (rewrite (cf_n P sp CF); exact Hi).
    apply (lowmc_enc_ext (lowmc_of (const_env 85) P)).
    - apply (wf_m P Hw).
    - intros q _. reflexivity.
    - intros q Hq. symmetry. apply Hb. rewrite <- (cf_n P sp CF). exact Hq.
    - change (lm_n (lowmc_of (const_env 85) P)) with (stateSizeBits P). rewrite (cf_n P sp CF). exact Hi. }
  set (X := sign_string (const_env 85) P sp sk C pt msg).
  assert (Hew : forall c, c < 3 -> length (ew sp c) = sp_T sp /\ Forall (fun v => v < 3) (ew sp c)).
  { intros c Hc. destruct (answers p P sp c HP H3 Htab Hc) as (A & _). unfold ew. split; [rewrite firstn_length; lia|].
    apply Forall_firstn. unfold answer_trits. apply Forall_flat_map. apply Forall_forall. intros d _.
    unfold digest_trits. apply Forall_flat_map. apply Forall_forall. intros i _.
    destruct (bit d (2 * i)), (bit d (2 * i + 1)); repeat constructor. }
  set (hz c := honest (const_env 85) P sp sk C pt msg (ew sp c)).
  assert (Hparse : forall c, c < 3 -> zkbpp_parse sp (honest_bytes (const_env 85) P sp sk C pt msg (ew sp c)) = Some (hz c)).
  { intros c Hc. destruct (Hew c Hc). apply honest_parse; auto. }
  assert (Hsh : forall c, c < 3 -> zshape sp (hz c)) by (intros c Hc; exact (parse_shape sp _ _ (Hparse c Hc))).
  assert (Hstr : forall c, c < 3 -> zstring (const_env 85) P sp C pt msg (hz c) = X).
  { intros c Hc. destruct (Hew c Hc). apply honest_string; auto. }
  assert (LX : octets (sp_H sp) + 32 + 6 + octets (sp_n sp) + octets (3 * sp_r sp * sp_s sp) <= length X).
  { etransitivity; [exact (long_strings p P sp HP H3 CF)|]. rewrite <- (Hstr 0) by lia. apply zstring_length; auto. }
  assert (LX' : octets (sp_H sp) < length X) by lia.
  assert (Hstr' : forall c, c < 3 -> zstring (Ew X c) P sp C pt msg (hz c) = X).
  { intros c Hc. rewrite <- (Hstr c Hc) at 2. apply (zstring_same (const_env 85) P sp HE X (h_of c) LX (hz c) (Hsh c Hc)). }
  exists (fun c => honest_bytes (const_env 85) P sp sk C pt msg (ew sp c)), h_of, X. cbv zeta.
  assert (Hbytes : forall c, c < 3 -> bytes_ok (honest_bytes (const_env 85) P sp sk C pt msg (ew sp c))).
  { intros c Hc. unfold honest_bytes. assert (K : forall x k, bytes_ok (KDF (const_env 85) sp x k)) by (intros; unfold KDF; apply HE).
    assert (S' : forall x o k, bytes_ok x -> bytes_ok (sub_bytes x o k)) by (intros; apply bytes_ok_slice; auto).
    apply Forall_app. split; [apply bytes_of_ok|]. apply Forall_app. split; [apply S', K|].
    apply Forall_flat_map. apply Forall_forall. intros t _. unfold sign_round_bytes.
    apply Forall_app. split; [apply K|]. apply Forall_app. split; [destruct (sp_UR sp); [apply K|constructor]|].
    apply Forall_app. split; [apply bytes_of_ok|]. apply Forall_app. split; [apply S', K|]. apply Forall_app. split; [apply S', K|].
    destruct (_ =? 0); [constructor|apply bytes_of_ok]. }
  split; [intros c _; apply Ew_bytes|]. split; [exact Hbytes|]. split; [|split; [|split]].
  - intros c Hc. assert (HCc : constants_ok (Ew X c) P) by exact HC.
    destruct (picnic_verify_is (Ew X c) p P sp 8 pk msg _ HP Hp H3 Htab (Ew_bytes X c) HCc W Hpad (Hbytes c Hc)) as [H|(_ & _ & H)];
      [|rewrite (Hparse c Hc) in H; discriminate].
    unfold Ew in H. rewrite H. unfold zkbpp_verify. rewrite (Hparse c Hc). unfold zkbpp_check.
    change (challenge_string sp _ _ _ _ _ _) with (zstring (Ew X c) P sp C pt msg (hz c)).
    rewrite (Hstr' c Hc). change (reprogram (const_env 85) (1%N :: X) (h_of c)) with (Ew X c).
    rewrite (Ew_H3 P p sp HP H3 Htab X LX' c Hc). destruct (Hew c Hc) as [L1 L2].
    replace (forallb _ _) with true.
    2:{ symmetry. apply forallb_forall. intros t Ht. apply in_seq in Ht. apply Nat.eqb_eq. symmetry. unfold hz, honest, ver_e. cbn [zs_e].
        apply (enc_trit P sp CF); auto. lia. }
    cbn [andb]. replace (zero_padding _ _) with true; [reflexivity|]. symmetry. apply zero_padding_iff. intros i Hi.
    unfold hz, honest, challenge_bytes. cbn [zs_e]. rewrite (proj2 (proj2 (bytes_of_spec _ _)) i).
    replace (i <? 2 * sp_T sp) with false by lia. reflexivity.
  - intros c Hc. unfold zkb_string. rewrite (Hparse c Hc). exact (Hstr' c Hc).
  - apply (answers p P sp 0 HP H3 Htab). lia.
  - intros c Hc. destruct (Hew c Hc) as [L1 L2]. destruct (answers p P sp c HP H3 Htab Hc) as (A1 & A2 & A3).
    unfold honest_bytes. transitivity (encoded_trit (challenge_bytes sp (ew sp c)) 0).
    + destruct (parse_e sp _ _ (Hparse c Hc)) as [He _].
      assert (Hl : 2 * 0 + 1 < 8 * octets (2 * sp_T sp)).
      { unfold octets. pose proof (Nat.div_mod (2 * sp_T sp + 7) 8 ltac:(lia)).
        pose proof (Nat.mod_upper_bound (2 * sp_T sp + 7) 8 ltac:(lia)). lia. }
      rewrite <- (trit_firstn (octets (2 * sp_T sp)) 0 _ Hl). f_equal. symmetry. exact He.
    + rewrite (enc_trit P sp CF) by auto. rewrite (nth_indep _ 0 7) by lia. exact A2.
Qed.

Lemma rewind_case p P sp msg : get_param_set p = Some P -> is_picnic3 p = false -> table2 p = Some sp ->
  exists sg h X, let E := const_env 85 in
  let pk := mkPk p (pk_plaintext (sk_pk (toy_sk p))) (pk_ciphertext (sk_pk (toy_sk p))) in
  let Ec c := reprogram E (1%N :: X) (h c) in
  env_bytes_ok E /\ constants_ok E P /\ pk_params pk = p /\ pk_wf pk /\ padding_zero P (pk_ciphertext pk) /\
  (forall c, c < 3 -> env_bytes_ok (Ec c)) /\ (forall c, c < 3 -> bytes_ok (sg c)) /\
  (forall c, c < 3 -> picnic_verify (Ec c) 8 pk msg (sg c) = Ok true) /\
  (forall c, c < 3 -> zkb_string (Ec c) P sp (pk_ciphertext pk) (pk_plaintext pk) msg (sg c) = X) /\
  0 < sp_T sp /\ (forall c, c < 3 -> encoded_trit (sg c) 0 = c).
Proof.
  intros HP H3' Ht. destruct (zkb_setup 85 _ P eq_refl HP) as (H1 & _ & H3 & H4 & _ & _ & _ & _ & _ & H10 & _).
  set (pk := mkPk p (pk_plaintext (sk_pk (toy_sk p))) (pk_ciphertext (sk_pk (toy_sk p)))).
  destruct (rewind_witness p P sp (sk_data (toy_sk p)) pk msg HP H3' Ht H3 eq_refl (proj2 H4) (proj2 H10) H10) as (sg & h & X & W).
  exists sg, h, X. cbv zeta.
  exact (conj H1 (conj H3 (conj eq_refl (conj (proj2 H4) (conj (proj2 H10) W))))).
Qed.
