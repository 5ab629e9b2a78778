(** The hash interface computes SHAKE of the concatenated input, unless a chunk is too long. *)

From Coq Require Import List NArith Arith Bool Lia.
From Verif Require Import Base Params Env Spec BaseFacts ParamFacts Keccak KeccakSpec KeccakPerm KeccakSponge KeccakProofs HashSpec.
Import ListNotations.

Lemma bits_byte_bits x : byte x -> bits_byte (byte_bits x) = x.
Proof.
  intros H.
  assert (A : forallb (fun n => N.eqb (bits_byte (byte_bits (N.of_nat n))) (N.of_nat n)) (seq 0 256) = true)
    by (vm_compute; reflexivity).
  rewrite forallb_forall in A. unfold byte in H.
  specialize (A (N.to_nat x) ltac:(apply in_seq; lia)). rewrite N2Nat.id in A. apply N.eqb_eq. exact A.
Qed.

Lemma bits_bytes_bits l : bytes_ok l -> bits_bytes (bytes_bits l) = l.
Proof.
  intros H. unfold bits_bytes. rewrite length_bytes_bits, Nat.mul_comm, Nat.div_mul by lia.
  apply (list_ext 0%N); rewrite ?map_length, seq_length; [reflexivity|].
  intros i Hi. set (f := fun i => bits_byte (firstn 8 (skipn (8 * i) (bytes_bits l)))).
  rewrite nth_indep with (d' := f 0) by (rewrite map_length, seq_length; exact Hi).
  rewrite (map_nth f), seq_nth by exact Hi. unfold f. rewrite Nat.add_0_l, skipn_bytes_bits.
  change 8 with (8 * 1) at 1. rewrite firstn_bytes_bits.
  rewrite firstn_skipn_S with (d := 0%N) by exact Hi. cbn [firstn].
  change (bytes_bits [nth i l 0%N]) with (byte_bits (nth i l 0%N) ++ []). rewrite app_nil_r.
  apply bits_byte_bits. apply bytes_ok_nth. exact H.
Qed.

(** ** The real hash function meets the requirements on the environment *)
Lemma length_keccak_f S : length (keccak_f S) = 1600.
Proof.
  unfold keccak_f. change (seq 0 24) with (seq 0 23 ++ [23]). rewrite fold_left_app. cbn [fold_left].
  apply length_tab.
Qed.

Lemma length_absorbed r P : length (absorbed r P) = 1600.
Proof.
  unfold absorbed. assert (G : forall l S, length S = 1600 -> length (fold_left
    (fun S B => keccak_f (xor_bits S (B ++ repeat false (1600 - r)))) l S) = 1600).
  { induction l as [|b l IH]; intros S H; [exact H|]. cbn [fold_left]. apply IH. apply length_keccak_f. }
  apply G. apply repeat_length.
Qed.

Lemma length_squeezed r d S : 0 < r <= 1600 -> length S = 1600 -> length (squeezed r d S) = d.
Proof.
  intros Hr HS. unfold squeezed. rewrite firstn_length. rewrite length_flat_map_const with (k := r).
  - rewrite seq_length. apply Nat.min_l.
    pose proof (Nat.div_mod (d + r - 1) r ltac:(lia)) as E.
    pose proof (Nat.mod_upper_bound (d + r - 1) r ltac:(lia)) as B. nia.
  - intros i. rewrite firstn_length. assert (L : length (Nat.iter i keccak_f S) = 1600).
    { destruct i as [|i]; [exact HS|]. exact (length_keccak_f (Nat.iter i keccak_f S)). }
    lia.
Qed.

Lemma shake_ok b m n : length (shake b m n) = n /\ bytes_ok (shake b m n).
Proof.
  unfold shake, bits_bytes.
  assert (L : length ((if b then SHAKE128 else SHAKE256) (bytes_bits m) (8 * n)) = 8 * n).
  { destruct b; unfold SHAKE128, SHAKE256, sponge_spec; apply length_squeezed; try lia; apply length_absorbed. }
  split.
  - rewrite map_length, seq_length, L, Nat.mul_comm, Nat.div_mul by lia. reflexivity.
  - apply Forall_forall. intros x Hx. apply in_map_iff in Hx as (i & <- & _).
    generalize (skipn (8 * i) ((if b then SHAKE128 else SHAKE256) (bytes_bits m) (8 * n))). intros l.
    unfold byte, bits_byte.
    do 8 (destruct l as [|[] l]; [vm_compute; reflexivity| |]); destruct l; vm_compute; reflexivity.
Qed.

(** ** The interface *)
Lemma u64_bits n : (N.of_nat n + 200 <= 2 ^ 32)%N -> u64 (n * 8) = n * 8.
Proof. intros H. apply u64_small. lia. Qed.

Lemma bits_div n : n * 8 / 8 = n.
Proof. apply Nat.div_mul. lia. Qed.
Lemma bits_mod n : n * 8 mod 8 = 0.
Proof. apply Nat.mod_mul. lia. Qed.

(** A context that has absorbed [D]. *)
Definition absorbing (r : nat) (D : bytes) (ctx : Keccak_HashInstance) : Prop :=
  exists rate, rate / 8 = r /\
  ctx = mkHash (mkSponge (fst (fold_left (absorb1 r) D (zeros 200, 0))) rate
                         (snd (fold_left (absorb1 r) D (zeros 200, 0))) false) 0 0x1F.

Lemma absorbing_wf r D : 0 < r <= 200 -> bytes_ok D ->
  wfs (fst (fold_left (absorb1 r) D (zeros 200, 0))) /\ snd (fold_left (absorb1 r) D (zeros 200, 0)) < r.
Proof. intros Hr HD. apply absorb_wf; cbn [fst snd]; auto using wfs_zeros; lia. Qed.

Lemma update_ok fuel r D ctx c : 0 < r <= 200 -> absorbing r D ctx -> bytes_ok D -> bytes_ok c ->
  fits r (length D mod r) c -> length c < fuel ->
  exists ctx', HashUpdate fuel ctx c (length c) = Ok ctx' /\ absorbing r (D ++ c) ctx'.
Proof.
  intros Hr (rate & Er & ->) HD Hc [Hs HF] Hf. destruct (absorbing_wf r D Hr HD) as [W K].
  unfold HashUpdate. rewrite u64_small by lia. unfold Keccak_HashUpdate. rewrite bits_div, bits_mod.
  rewrite (absorb_ok fuel r) by (cbn [sponge sp_rate sp_state byteIOIndex squeezing]; auto;
    rewrite absorb_pos by (cbn; lia); exact HF).
  cbn [bind Nat.eqb c_assert]. eexists. split; [reflexivity|].
  exists rate. split; [exact Er|]. rewrite fold_left_app. unfold set_pos, pos, set_sponge.
  cbn [sponge sp_rate sp_state byteIOIndex squeezing fixedOutputLength delimitedSuffix].
  rewrite <- surjective_pairing. reflexivity.
Qed.

Lemma updates_ok fuel r : 0 < r <= 200 -> forall chunks D ctx, absorbing r D ctx -> bytes_ok D ->
  Forall bytes_ok chunks -> all_fit r (length D mod r) chunks -> Forall (fun c => length c < fuel) chunks ->
  exists ctx', updates fuel ctx chunks = Ok ctx' /\ absorbing r (D ++ concat chunks) ctx'.
Proof.
  intros Hr. induction chunks as [|c cs IH]; intros D ctx HA HD H1 H2 H3; cbn [updates concat].
  - exists ctx. rewrite app_nil_r. auto.
  - inversion H1; inversion H3; subst. destruct H2 as [F1 F2].
    destruct (update_ok fuel r D ctx c) as (ctx' & E & HA'); auto. rewrite E. cbn [bind].
    destruct (IH (D ++ c) ctx' HA') as (ctx'' & E' & HA''); auto; [apply bytes_ok_app; auto| |].
    { rewrite app_length. rewrite Nat.add_mod_idemp_l in F2 by lia. exact F2. }
    exists ctx''. split; [exact E'|]. rewrite app_assoc. exact HA''.
Qed.

Lemma init_ok fuel ctx P prefix : match prefix with Some b => byte b | None => True end -> 1 < fuel ->
  exists ctx', HashInit fuel ctx P prefix = Ok ctx' /\ absorbing (rate_bytes P) (prefix_bytes prefix) ctx'.
Proof.
  intros Hp Hf. unfold HashInit.
  set (c0 := snd (if use_shake128 P then Keccak_HashInitialize ctx 1344 256 0 0x1F else Keccak_HashInitialize ctx 1088 512 0 0x1F)).
  assert (A : absorbing (rate_bytes P) [] c0).
  { unfold c0, rate_bytes. destruct (use_shake128 P); [exists 1344|exists 1088]; split; reflexivity. }
  clearbody c0. destruct prefix as [b|]; cbn [prefix_bytes]; [|exists c0; auto].
  apply (update_ok fuel (rate_bytes P) [] c0 [b]); auto.
  - unfold rate_bytes. destruct (use_shake128 P); lia.
  - constructor.
  - repeat constructor. exact Hp.
  - split; [cbn; lia|left]. apply Nat.mod_0_l. unfold rate_bytes. destruct (use_shake128 P); lia.
Qed.

(** A context that squeezes at position [p]. *)
Definition squeezing_at (r : nat) (p : bytes * nat) (ctx : Keccak_HashInstance) : Prop :=
  exists rate, rate / 8 = r /\ ctx = mkHash (mkSponge (fst p) rate (snd p) true) 0 0x1F.

Lemma final_ok fuel r D ctx : 0 < r <= 200 -> bytes_ok D -> absorbing r D ctx -> 0 < fuel ->
  exists ctx', HashFinal fuel ctx = Ok ctx' /\ squeezing_at r (final_state r D, 0) ctx'.
Proof.
  intros Hr HD (rate & Er & ->) Hf. destruct (absorbing_wf r D Hr HD) as [W K].
  unfold HashFinal, Keccak_HashFinal. cbn [sponge delimitedSuffix].
  set (inst := {| sp_state := _ |}).
  destruct (last_bits_ok r inst) as (E0 & E); auto. rewrite E. cbn [bind Nat.eqb set_sponge sponge fixedOutputLength].
  change (0 / 8) with (length (@nil N)).
  set (p := fold_left (absorb1 r) (pad_tail r (byteIOIndex inst)) (pos inst)) in *.
  assert (Ep : p = (final_state r D, 0)).
  { rewrite (surjective_pairing p), E0. f_equal. unfold p, final_state. rewrite fold_left_app.
    unfold inst, pos. cbn [byteIOIndex sp_state]. rewrite <- surjective_pairing.
    rewrite absorb_pos by (cbn; lia). reflexivity. }
  destruct (final_state_ok r D Hr HD) as [WF _].
  rewrite (squeeze_ok fuel r) by (rewrite ?Ep; cbn [sp_rate sp_state byteIOIndex squeezing set_squeezing set_pos fst snd inst]; auto; try lia; cbn; lia).
  cbn [bind]. eexists. split; [reflexivity|]. rewrite Ep. exists rate. split; [exact Er|]. reflexivity.
Qed.

Lemma sqn_wf r n : 0 < r <= 200 -> forall p, wfs (fst p) -> snd p <= r ->
  wfs (fst (snd (sqn r n p))) /\ snd (snd (sqn r n p)) <= r.
Proof.
  intros Hr. induction n as [|n IH]; intros [s k] Hs Hk; [auto|]. cbn [sqn fst snd] in *. unfold sq1. cbn [fst snd].
  destruct (Nat.eqb_spec k r) as [E|E].
  - specialize (IH (Fp s, 1)). destruct (sqn r n (Fp s, 1)) as [l p2]. apply IH; cbn [fst snd]; [apply wfs_Fp; exact Hs|lia].
  - specialize (IH (s, S k)). destruct (sqn r n (s, S k)) as [l p2]. apply IH; cbn [fst snd]; [exact Hs|lia].
Qed.

Lemma squeezes_ok fuel r : 0 < r <= 200 -> forall bufs p ctx, squeezing_at r p ctx -> wfs (fst p) -> snd p <= r ->
  Forall short bufs -> Forall (fun c => length c < fuel) bufs ->
  exists ds, squeezes fuel ctx bufs = Ok ds /\ map (@length N) ds = map (@length N) bufs /\
    concat ds = fst (sqn r (length (concat bufs)) p).
Proof.
  intros Hr. induction bufs as [|b bs IH]; intros p ctx (rate & Er & ->) Hs Hk H1 H2; cbn [squeezes concat].
  - exists []. repeat split.
  - inversion H1; inversion H2; subst.
    unfold HashSqueeze. rewrite u64_bits by assumption. unfold Keccak_HashSqueeze. rewrite bits_mod, bits_div.
    cbn [Nat.eqb negb sponge].
    rewrite (squeeze_ok fuel (rate / 8)) by (cbn [sp_rate sp_state byteIOIndex squeezing]; auto; lia).
    cbn [bind]. unfold pos. cbn [sp_state byteIOIndex]. rewrite <- surjective_pairing.
    set (q := sqn (rate / 8) (length b) p).
    destruct (sqn_wf (rate / 8) (length b) Hr p Hs Hk) as [W K]. fold q in W, K.
    destruct (IH (snd q) (set_sponge (mkHash (mkSponge (fst p) rate (snd p) true) 0 0x1F)
        (set_pos (mkSponge (fst p) rate (snd p) true) (snd q)))) as (ds & E & Hm & Hc); auto.
    { exists rate. split; reflexivity. }
    rewrite E. cbn [bind]. eexists. split; [reflexivity|]. cbn [map concat]. split.
    + rewrite Hm. f_equal. apply length_sqn.
    + rewrite Hc, app_length, sqn_add. reflexivity.
Qed.

Lemma rate_bytes_ok P : 0 < rate_bytes P <= 200.
Proof. unfold rate_bytes. destruct (use_shake128 P); lia. Qed.

Lemma bytes_ok_concat l : Forall bytes_ok l -> bytes_ok (concat l).
Proof. induction 1; cbn [concat]; [constructor|]. apply bytes_ok_app; auto. Qed.

Lemma shake_sqn P D n : bytes_ok D ->
  shake (use_shake128 P) D n = fst (sqn (rate_bytes P) n (final_state (rate_bytes P) D, 0)).
Proof.
  intros HD. pose proof (rate_bytes_ok P) as Hr.
  destruct (final_state_ok (rate_bytes P) D Hr HD) as [W E].
  assert (HB : bytes_ok (fst (sqn (rate_bytes P) n (final_state (rate_bytes P) D, 0)))).
  { clear E. generalize 0 at 1. revert W. generalize (final_state (rate_bytes P) D).
    induction n as [|n IH]; intros s W k; [constructor|]. cbn [sqn]. unfold sq1. cbn [fst snd].
    destruct (k =? rate_bytes P).
    - specialize (IH (Fp s) (wfs_Fp _ W) 1). destruct (sqn _ n (Fp s, 1)). cbn [fst] in *. constructor; [|exact IH].
      apply bytes_ok_nth. apply (wfs_Fp _ W).
    - specialize (IH s W (S k)). destruct (sqn _ n (s, S k)). cbn [fst] in *. constructor; [|exact IH].
      apply bytes_ok_nth. apply W. }
  rewrite <- (bits_bytes_bits _ HB). unfold shake. f_equal. rewrite sqn_squeezed by assumption. rewrite E.
  unfold rate_bytes. destruct (use_shake128 P); reflexivity.
Qed.

Lemma prefix_pos P prefix : length (prefix_bytes prefix) mod rate_bytes P = length (prefix_bytes prefix).
Proof. apply Nat.mod_small. unfold rate_bytes. destruct prefix, (use_shake128 P); cbn [prefix_bytes length]; lia. Qed.

Lemma session_ok fuel ctx P prefix chunks bufs :
  match prefix with Some b => byte b | None => True end ->
  Forall bytes_ok chunks -> all_fit (rate_bytes P) (length (prefix_bytes prefix)) chunks -> Forall short bufs ->
  1 < fuel -> Forall (fun c => length c < fuel) chunks -> Forall (fun c => length c < fuel) bufs ->
  exists ds, hash_session fuel ctx P prefix chunks bufs = Ok ds /\
    map (@length N) ds = map (@length N) bufs /\
    concat ds = shake (use_shake128 P) (prefix_bytes prefix ++ concat chunks) (length (concat bufs)).
Proof.
  intros Hp H1 H2 H3 Hf H4 H5. unfold hash_session. pose proof (rate_bytes_ok P) as Hr.
  assert (HB : bytes_ok (prefix_bytes prefix)).
  { destruct prefix as [b|]; [repeat constructor; exact Hp|constructor]. }
  rewrite <- prefix_pos with (P := P) in H2.
  destruct (init_ok fuel ctx P prefix Hp Hf) as (c1 & E1 & A1). rewrite E1. cbn [bind].
  destruct (updates_ok fuel _ Hr chunks _ c1 A1 HB H1 H2 H4) as (c2 & E2 & A2). rewrite E2. cbn [bind].
  assert (HD : bytes_ok (prefix_bytes prefix ++ concat chunks)) by (apply bytes_ok_app; auto using bytes_ok_concat).
  destruct (final_ok fuel _ _ c2 Hr HD A2) as (c3 & E3 & A3); [lia|]. rewrite E3. cbn [bind].
  destruct (final_state_ok (rate_bytes P) _ Hr HD) as [W _].
  destruct (squeezes_ok fuel _ Hr bufs _ c3 A3) as (ds & E & Hm & Hc); auto; [cbn; lia|].
  exists ds. split; [exact E|]. split; [exact Hm|]. rewrite Hc. symmetry. apply shake_sqn. exact HD.
Qed.

Lemma short_fits r k c : k < r <= 200 -> short c -> fits r k c.
Proof.
  intros Hk Hs. unfold short in Hs. split; [lia|]. right. rewrite N.mod_small by lia. lia.
Qed.

Lemma short_all_fit r : 0 < r <= 200 -> forall chunks k, k < r -> Forall short chunks -> all_fit r k chunks.
Proof.
  intros Hr. induction chunks as [|c cs IH]; intros k Hk H; cbn [all_fit]; [exact I|].
  inversion H; subst. split; [apply short_fits; [lia|assumption]|]. apply IH; [|assumption].
  apply Nat.mod_upper_bound. lia.
Qed.

(** ** Chunks that do not fit *)
Lemma update_bad fuel r D ctx c : 0 < r <= 200 -> absorbing r D ctx -> bytes_ok D ->
  (N.of_nat (length c) < 2 ^ 61)%N -> ~ fits r (length D mod r) c -> 0 < fuel ->
  HashUpdate fuel ctx c (length c) =
  if (2 ^ 32 <=? N.of_nat (length c) mod 2 ^ 32 + N.of_nat (length D mod r))%N then UB else NoFuel.
Proof.
  intros Hr (rate & Er & ->) HD H61 HF Hf. destruct (absorbing_wf r D Hr HD) as [W K].
  assert (EK : snd (fold_left (absorb1 r) D (zeros 200, 0)) = length D mod r) by (rewrite absorb_pos by (cbn; lia); reflexivity).
  destruct (fold_left (absorb1 r) D (zeros 200, 0)) as [st k]. cbn [fst snd] in *. rewrite <- EK in *. clear EK.
  unfold HashUpdate. rewrite u64_small by lia. unfold Keccak_HashUpdate, SpongeAbsorb. rewrite bits_div, bits_mod.
  cbn [sponge squeezing sp_rate]. rewrite Er. unfold fits in HF. cbv zeta in HF.
  destruct (N.leb_spec (2 ^ 32) (N.of_nat (length c) mod 2 ^ 32 + N.of_nat k)) as [L|L].
  - rewrite absorb_overrun by (cbn [sp_state byteIOIndex]; auto; apply W). reflexivity.
  - rewrite absorb_stuck_later; cbn [sp_state byteIOIndex]; auto.
    + destruct (Nat.eq_dec k 0) as [E|E]; [|lia]. exfalso. apply HF. split; [exact H61|]. left. exact E.
    + destruct (N.lt_ge_cases (N.of_nat (length c)) (2 ^ 32)) as [B|B]; [|exact B].
      exfalso. apply HF. split; [exact H61|]. right. split; [exact L|]. left. exact B.
    + destruct (N.lt_ge_cases (N.of_nat (length c) mod 2 ^ 32 + N.of_nat k) (N.of_nat r)) as [B|B]; [exact B|].
      exfalso. apply HF. split; [exact H61|]. right. split; [exact L|]. right. exact B.
Qed.

Lemma updates_app fuel ctx a b : updates fuel ctx (a ++ b) = (ctx <- updates fuel ctx a ;; updates fuel ctx b).
Proof.
  revert ctx. induction a as [|c a IH]; intros ctx; [reflexivity|]. cbn [app updates].
  destruct (HashUpdate fuel ctx c (length c)); cbn [bind]; auto.
Qed.

Lemma session_long fuel ctx P prefix chunks c more bufs :
  match prefix with Some b => byte b | None => True end ->
  Forall bytes_ok chunks -> all_fit (rate_bytes P) (length (prefix_bytes prefix)) chunks ->
  1 < fuel -> Forall (fun c => length c < fuel) chunks ->
  let k := length (prefix_bytes prefix ++ concat chunks) mod rate_bytes P in
  (N.of_nat (length c) < 2 ^ 61)%N -> ~ fits (rate_bytes P) k c ->
  hash_session fuel ctx P prefix (chunks ++ c :: more) bufs =
  if (2 ^ 32 <=? N.of_nat (length c) mod 2 ^ 32 + N.of_nat k)%N then UB else NoFuel.
Proof.
  intros Hp H1 H2 Hf H4 k H61 HF. unfold hash_session. pose proof (rate_bytes_ok P) as Hr.
  assert (HB : bytes_ok (prefix_bytes prefix)).
  { destruct prefix as [b|]; [repeat constructor; exact Hp|constructor]. }
  rewrite <- prefix_pos with (P := P) in H2.
  destruct (init_ok fuel ctx P prefix Hp Hf) as (c1 & E1 & A1). rewrite E1. cbn [bind]. rewrite updates_app.
  destruct (updates_ok fuel _ Hr chunks _ c1 A1 HB H1 H2 H4) as (c2 & E2 & A2). rewrite E2. cbn [bind updates].
  assert (HD : bytes_ok (prefix_bytes prefix ++ concat chunks)) by (apply bytes_ok_app; auto using bytes_ok_concat).
  rewrite (update_bad fuel _ _ _ _ Hr A2 HD H61 HF) by lia. fold k.
  destruct (2 ^ 32 <=? _)%N; reflexivity.
Qed.

Lemma shake_env E : env_bytes_ok E -> env_bytes_ok (with_shake E).
Proof. intros [_ H]. split; [intros b m n; apply shake_ok|exact H]. Qed.

(** ** One output, and the connection with [hash] *)
Lemma session_hash E fuel ctx P prefix chunks buf :
  match prefix with Some b => byte b | None => True end ->
  Forall bytes_ok chunks -> Forall short chunks -> short buf ->
  1 < fuel -> Forall (fun c => length c < fuel) chunks -> length buf < fuel ->
  hash_session fuel ctx P prefix chunks [buf] = Ok [hash (with_shake E) P prefix chunks (length buf)].
Proof.
  intros Hp H1 H2 H3 Hf H4 H5. pose proof (rate_bytes_ok P) as Hr.
  destruct (session_ok fuel ctx P prefix chunks [buf] Hp H1) as (ds & E1 & E2 & E3); auto.
  - apply short_all_fit; auto. unfold prefix_bytes, rate_bytes. destruct prefix, (use_shake128 P); cbn; lia.
  - rewrite E1. destruct ds as [|d [|? ?]]; cbn in E2; try discriminate. cbn in E3. rewrite !app_nil_r in E3.
    unfold hash. cbn. rewrite <- E3. reflexivity.
Qed.

(** ** The hash that starts signing *)
Lemma key_position p P : get_param_set p = Some P ->
  0 < stateSizeBytes P < 136 /\ stateSizeBytes P mod rate_bytes P = stateSizeBytes P.
Proof.
  intros HP.
  assert (H : ((0 <? stateSizeBytes P) && (stateSizeBytes P <? 136)) = true).
  { revert p P HP. apply (params_forall (fun _ P => (0 <? stateSizeBytes P) && (stateSizeBytes P <? 136))).
    vm_compute. reflexivity. }
  split; [lia|]. apply Nat.mod_small. unfold rate_bytes. destruct (use_shake128 P); lia.
Qed.

Lemma sign_hash_long p P fuel ctx sk msg more bufs :
  get_param_set p = Some P -> bytes_ok sk -> length sk = stateSizeBytes P -> 200 < fuel ->
  let len := N.of_nat (length msg) in let n := N.of_nat (stateSizeBytes P) in
  ((2 ^ 32 <= len + n /\ len < 2 ^ 32)%N ->
     hash_session fuel ctx P HASH_PREFIX_NONE (sk :: msg :: more) bufs = UB) /\
  (len = (2 ^ 32)%N -> hash_session fuel ctx P HASH_PREFIX_NONE (sk :: msg :: more) bufs = NoFuel).
Proof.
  intros HP Hb Hl Hf len n. destruct (key_position p P HP) as [Hn Hm].
  assert (Hr : 136 <= rate_bytes P) by (unfold rate_bytes; destruct (use_shake128 P); lia).
  assert (G : forall b, (N.of_nat (length msg) < 2 ^ 61)%N -> ~ fits (rate_bytes P) (stateSizeBytes P) msg ->
      (2 ^ 32 <=? N.of_nat (length msg) mod 2 ^ 32 + N.of_nat (stateSizeBytes P))%N = b ->
      hash_session fuel ctx P HASH_PREFIX_NONE (sk :: msg :: more) bufs = if b then UB else NoFuel).
  { intros b H61 HF <-.
    pose proof (session_long fuel ctx P HASH_PREFIX_NONE [sk] msg more bufs) as L. cbv zeta in L.
    cbn [prefix_bytes HASH_PREFIX_NONE app concat length] in L. rewrite app_nil_r, Hl, Hm in L. apply L; auto; try lia.
    - cbn [all_fit]. split; [|exact I]. split; [rewrite Hl; lia|left; reflexivity].
    - constructor; [lia|constructor]. }
  subst len n. split.
  - intros [H1 H2]. apply (G true); [lia| |rewrite N.mod_small by lia; lia].
    intros [_ [F|[F _]]]; [lia|]. rewrite N.mod_small in F by lia. lia.
  - intros H1. apply (G false); rewrite ?H1; [reflexivity| |vm_compute (2 ^ 32 mod 2 ^ 32)%N; lia].
    intros [_ [F|[_ [F|F]]]]; [lia| |]; rewrite H1 in F; [lia|]. vm_compute (2 ^ 32 mod 2 ^ 32)%N in F. lia.
Qed.

Lemma permute_thm s : bytes_ok s -> length s = 200 ->
  exists s', SnP_Permute s = Ok s' /\ bytes_bits s' = keccak_f (bytes_bits s).
Proof. intros HB HL. destruct (proj1 (ok_ex _ _) (permute_ok s HL HB)) as (s' & E & _ & _ & H). eauto. Qed.
