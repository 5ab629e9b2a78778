(** Hashing in pieces gives the SHAKE output of the concatenated input. *)

From Coq Require Import List NArith Arith Bool Lia.
From Verif Require Import Base Params Env Spec BaseFacts Keccak KeccakSpec KeccakPerm KeccakSponge.
Import ListNotations.

(** ** Squeezing *)
Lemma blit_nil {A} (d : list A) cur : cur <= length d -> blit_list d cur [] = d.
Proof. intros H. unfold blit_list. cbn [length app]. rewrite Nat.add_0_r. apply firstn_skipn. Qed.

Lemma blit_blit_n {A} (d : list A) cur a b n : length a = n -> cur + n + length b <= length d ->
  blit_list (blit_list d cur a) (cur + n) b = blit_list d cur (a ++ b).
Proof. intros <-. apply blit_blit. Qed.

Lemma squeeze_blocks_ok r : 0 < r <= 200 -> forall fuel j cur d st,
  wfs st -> cur + j <= length d -> j < fuel ->
  exists st' q, squeeze_blocks fuel r d j cur st = Ok (st', blit_list d cur (fst (sqn r q (st, r))), cur + q, j - q) /\
    q <= j /\ j - q < r /\ (r <= j -> 0 < q) /\ wfs st' /\ snd (sqn r q (st, r)) = (st', r).
Proof.
  intros Hr. induction fuel as [|fuel IH]; intros j cur d st Hs Hc Hf; [lia|].
  cbn [squeeze_blocks]. destruct (Nat.leb_spec r j) as [L|L].
  - destruct (permute_eq _ Hs) as (E & W & _). rewrite E. cbn [bind].
    rewrite Extract_eq by (auto; lia). cbn [bind].
    set (l := firstn r (skipn 0 (Fp st))).
    assert (Ll : length l = r) by (apply length_firstn_skipn; destruct W as [HW _]; lia).
    destruct (IH (j - r) (cur + r) (blit_list d cur l) (Fp st) W) as (st' & q & E' & Hq & Hr' & _ & Ws & F);
      [rewrite length_blit_list; lia|lia|].
    exists st', (r + q). rewrite E'.
    assert (S1 : sqn r r (st, r) = (l, (Fp st, r))).
    { rewrite sqn_perm by lia. rewrite sqn_part by (destruct W as [HW _]; lia). reflexivity. }
    rewrite sqn_add, S1. cbn [fst snd].
    split.
    { rewrite (blit_blit_n d cur l _ r Ll) by (rewrite length_sqn; lia).
      f_equal. f_equal; [f_equal|]; lia. }
    split; [lia|]. split; [lia|]. split; [lia|]. split; [exact Ws|exact F].
  - exists st, 0. cbn [sqn fst snd]. rewrite blit_nil by lia. rewrite Nat.add_0_r, Nat.sub_0_r.
    split; [reflexivity|]. split; [lia|]. split; [lia|]. split; [lia|]. split; [exact Hs|reflexivity].
Qed.

Lemma squeeze_loop_ok r len : 0 < r <= 200 -> (N.of_nat len + 200 <= 2 ^ 32)%N -> forall fuel i d inst,
  len <= length d -> wfs (sp_state inst) -> byteIOIndex inst <= r -> i <= len -> len - i < fuel ->
  squeeze_loop fuel r d len i i inst =
  Ok (set_pos inst (snd (sqn r (len - i) (pos inst))), blit_list d i (fst (sqn r (len - i) (pos inst)))).
Proof.
  intros Hr H32. induction fuel as [|fuel IH]; intros i d inst Hd Hs Hk Hi Hf; [lia|].
  cbn [squeeze_loop]. destruct (Nat.ltb_spec i len) as [L|L].
  2:{ replace (len - i) with 0 by lia. cbn [sqn fst snd]. rewrite blit_nil by lia. destruct inst; reflexivity. }
  destruct ((byteIOIndex inst =? r) && (i + r <=? len)) eqn:C.
  - apply andb_true_iff in C as [E0 L1]. apply Nat.eqb_eq in E0. apply Nat.leb_le in L1.
    destruct (squeeze_blocks_ok r Hr (S (len - i)) (len - i) i d (sp_state inst)) as (st' & q & E & Hq & Hr' & Hq0 & Ws & F);
      [exact Hs|lia|lia|].
    rewrite E. cbn [bind].
    replace (len - (len - i - q)) with (i + q) by lia.
    assert (Lq := length_sqn r q (sp_state inst, r)).
    rewrite IH by (cbn [sp_state byteIOIndex set_state]; rewrite ?length_blit_list; auto; lia).
    unfold set_pos, set_state, pos. cbn [sp_rate squeezing sp_state byteIOIndex].
    replace (len - i) with (q + (len - (i + q))) by lia.
    rewrite sqn_add. rewrite E0, F. cbn [fst snd].
    set (o := fst (sqn r q (sp_state inst, r))) in *.
    rewrite (blit_blit_n d i o _ q Lq) by (rewrite length_sqn; lia). reflexivity.
  - set (k0 := byteIOIndex inst) in *.
    (* the position after the optional permutation *)
    set (inst1 := if k0 =? r then set_idx (set_state inst (Fp (sp_state inst))) 0 else inst).
    assert (P : (if k0 =? r then s <- SnP_Permute (sp_state inst) ;; Ok (set_idx (set_state inst s) 0) else Ok inst) = Ok inst1).
    { unfold inst1. destruct (k0 =? r); [|reflexivity]. destruct (permute_eq _ Hs) as (-> & _ & _). reflexivity. }
    rewrite P. cbn [bind]. clear P.
    assert (Q : wfs (sp_state inst1) /\ byteIOIndex inst1 < r /\ set_pos inst1 = set_pos inst /\
                forall n, 0 < n -> sqn r n (pos inst) = sqn r n (pos inst1)).
    { unfold inst1, pos. fold k0. destruct (Nat.eqb_spec k0 r) as [E|E]; cbn [set_idx set_state sp_state byteIOIndex].
      - split; [apply wfs_Fp, Hs|]. split; [lia|]. split; [reflexivity|]. intros n Hn. rewrite E. apply sqn_perm; lia.
      - fold k0. split; [exact Hs|]. split; [lia|]. split; reflexivity. }
    destruct Q as (Hs1 & Hk1 & SP & Q). rewrite (Q (len - i)) by lia. clear Q C. rewrite <- SP. clear SP Hs Hk.
    clearbody inst1. clear k0 inst. set (k := byteIOIndex inst1) in *.
    rewrite (u32_small (len - i)) by lia. rewrite (u32_small (len - i + k)) by lia.
    set (pb := if r <? len - i + k then r - k else len - i).
    assert (Hpb : 0 < pb /\ pb <= len - i /\ k + pb <= r).
    { unfold pb. destruct (Nat.ltb_spec r (len - i + k)); lia. }
    destruct Hpb as (P1 & P2 & P3). clearbody pb.
    rewrite Extract_eq by (auto; lia). cbn [bind]. rewrite (u32_small (k + pb)) by lia.
    assert (LS : length (sp_state inst1) = 200) by apply Hs1.
    set (o := firstn pb (skipn k (sp_state inst1))).
    assert (Lo : length o = pb) by (apply length_firstn_skipn; lia).
    rewrite IH by (cbn [sp_state byteIOIndex set_idx]; rewrite ?length_blit_list; auto; lia).
    unfold set_pos, set_idx, pos. cbn [sp_rate squeezing sp_state byteIOIndex]. fold k.
    replace (len - i) with (pb + (len - (i + pb))) by lia.
    rewrite sqn_add. rewrite (sqn_part r (sp_state inst1) ltac:(lia) pb k) by lia. cbn [fst snd]. fold o.
    rewrite (blit_blit_n d i o _ pb Lo) by (rewrite length_sqn; lia). reflexivity.
Qed.

Lemma squeeze_ok fuel r inst d : sp_rate inst / 8 = r -> 0 < r <= 200 ->
  (N.of_nat (length d) + 200 <= 2 ^ 32)%N -> wfs (sp_state inst) -> byteIOIndex inst <= r ->
  squeezing inst = true -> length d < fuel ->
  SpongeSqueeze fuel inst d (length d) =
  Ok (0, set_pos inst (snd (sqn r (length d) (pos inst))), fst (sqn r (length d) (pos inst))).
Proof.
  intros Er Hr H32 Hs Hk Hq Hf. unfold SpongeSqueeze. rewrite Hq. cbn [bind]. rewrite Er.
  rewrite squeeze_loop_ok by (auto; lia). cbn [bind]. rewrite Nat.sub_0_r.
  unfold blit_list. rewrite length_sqn. cbn [firstn app]. rewrite Nat.add_0_l, skipn_all, app_nil_r. reflexivity.
Qed.

(** ** Strings of bytes as strings of bits *)
Lemma bytes_bits_app a b : bytes_bits (a ++ b) = bytes_bits a ++ bytes_bits b.
Proof. apply flat_map_app. Qed.

Lemma firstn_bytes_bits n : forall l, firstn (8 * n) (bytes_bits l) = bytes_bits (firstn n l).
Proof.
  induction n as [|n IH]; intros l; [reflexivity|]. destruct l as [|x l]; [rewrite !firstn_nil; reflexivity|].
  change (bytes_bits (x :: l)) with (byte_bits x ++ bytes_bits l). cbn [firstn].
  change (bytes_bits (x :: firstn n l)) with (byte_bits x ++ bytes_bits (firstn n l)).
  rewrite <- IH. rewrite firstn_app, length_byte_bits. replace (8 * S n - 8) with (8 * n) by lia. f_equal.
  apply firstn_all2. rewrite length_byte_bits. lia.
Qed.

Lemma skipn_bytes_bits n : forall l, skipn (8 * n) (bytes_bits l) = bytes_bits (skipn n l).
Proof.
  induction n as [|n IH]; intros l; [reflexivity|]. destruct l as [|x l]; [rewrite !skipn_nil; reflexivity|].
  change (bytes_bits (x :: l)) with (byte_bits x ++ bytes_bits l). cbn [skipn].
  rewrite <- IH. rewrite skipn_app, length_byte_bits. replace (8 * S n - 8) with (8 * n) by lia.
  rewrite (skipn_all2 (byte_bits x)) by (rewrite length_byte_bits; lia). reflexivity.
Qed.

Lemma bytes_bits_zeros n : bytes_bits (zeros n) = repeat false (8 * n).
Proof.
  induction n as [|n IH]; [reflexivity|]. change (bytes_bits (zeros (S n))) with (byte_bits 0 ++ bytes_bits (zeros n)).
  rewrite IH. replace (8 * S n) with (8 + 8 * n) by lia. rewrite repeat_app. reflexivity.
Qed.

Lemma length_xor_bits a b : length a = length b -> length (xor_bits a b) = length a.
Proof. intros H. unfold xor_bits. rewrite map_length, combine_length. lia. Qed.

Lemma nth_xor_bits a b i : length a = length b -> i < length a ->
  nth i (xor_bits a b) false = xorb (nth i a false) (nth i b false).
Proof.
  intros H Hi. unfold xor_bits.
  change false with ((fun p : bool * bool => xorb (fst p) (snd p)) (false, false)) at 1.
  rewrite map_nth. rewrite combine_nth by exact H. reflexivity.
Qed.

Lemma xor_at_bits st B r : length st = 200 -> length B = r -> r <= 200 ->
  bytes_bits (xor_at st 0 B) = xor_bits (bytes_bits st) (bytes_bits B ++ repeat false (1600 - 8 * r)).
Proof.
  intros HS HB Hr.
  assert (LL : length (bytes_bits st) = length (bytes_bits B ++ repeat false (1600 - 8 * r))).
  { rewrite app_length, repeat_length, !length_bytes_bits. lia. }
  apply (list_ext false).
  - rewrite length_xor_bits by exact LL. rewrite !length_bytes_bits, length_xor_at. reflexivity.
  - intros i Hi. rewrite length_bytes_bits, length_xor_at, HS in Hi.
    rewrite nth_xor_bits by (first [exact LL | rewrite length_bytes_bits; lia]).
    assert (E8 : i = 8 * (i / 8) + i mod 8) by (apply Nat.div_mod; lia).
    assert (B8 : i mod 8 < 8) by (apply Nat.mod_upper_bound; lia).
    set (k := i / 8) in *. set (j := i mod 8) in *. clearbody k j. subst i.
    rewrite !nth_bytes_bits by (rewrite ?length_xor_at; lia).
    rewrite nth_xor_at by lia. rewrite N.lxor_spec. f_equal. cbn [Nat.leb andb]. rewrite Nat.add_0_l, Nat.sub_0_r.
    destruct (Nat.ltb_spec k (length B)) as [L|L].
    + rewrite app_nth1 by (rewrite length_bytes_bits; lia). rewrite nth_bytes_bits by lia. reflexivity.
    + rewrite app_nth2 by (rewrite length_bytes_bits; lia). rewrite nth_repeat. apply N.bits_0.
Qed.

(** ** Absorbing whole blocks *)
Lemma absorb_all r : 0 < r <= 200 -> forall n l st, bytes_ok l -> wfs st -> length l = r * n ->
  let p := fold_left (absorb1 r) l (st, 0) in
  snd p = 0 /\ wfs (fst p) /\
  bytes_bits (fst p) = fold_left (fun S B => keccak_f (xor_bits S (B ++ repeat false (1600 - 8 * r))))
    (map (fun i => firstn (8 * r) (skipn (8 * r * i) (bytes_bits l))) (seq 0 n)) (bytes_bits st).
Proof.
  intros Hr. induction n as [|n IH]; intros l st Hl Hs Ln.
  - replace (r * 0) with 0 in Ln by lia. destruct l; [|discriminate]. cbn. auto.
  - set (B := firstn r l). set (l' := skipn r l).
    assert (El : l = B ++ l') by (symmetry; apply firstn_skipn).
    assert (LB : length B = r) by (unfold B; rewrite firstn_length; lia).
    assert (Ll' : length l' = r * n) by (unfold l'; rewrite skipn_length; lia).
    assert (HB : bytes_ok B) by (apply Forall_firstn; exact Hl).
    assert (Hl' : bytes_ok l') by (apply Forall_skipn; exact Hl).
    assert (W : wfs (xor_at st 0 B)) by (apply xor_at_wfs; auto; lia).
    destruct (permute_eq _ W) as (_ & W' & EB).
    cbv zeta. rewrite El, fold_left_app.
    rewrite absorb_fill by (first [lia | intros Cn; rewrite Cn in LB; cbn in LB; lia]).
    destruct (IH l' _ Hl' W' Ll') as (I1 & I2 & I3). split; [exact I1|]. split; [exact I2|].
    rewrite I3. cbn [seq map fold_left]. rewrite EB, (xor_at_bits st B r) by (auto; apply Hs || lia).
    replace (8 * r * 0) with 0 by lia. cbn [skipn].
    rewrite <- El. rewrite (firstn_bytes_bits r l). fold B. f_equal.
    rewrite <- seq_shift, map_map. apply map_ext. intros i.
    replace (8 * r * S i) with (8 * r + 8 * r * i) by lia. rewrite <- skipn_add.
    rewrite (skipn_bytes_bits r l). reflexivity.
Qed.

Lemma absorb_pos r l : 0 < r -> forall p, snd p < r -> snd (fold_left (absorb1 r) l p) = (snd p + length l) mod r.
Proof.
  intros Hr. induction l as [|x l IH]; intros [st k] Hk; cbn [fold_left length snd] in *.
  - rewrite Nat.add_0_r. symmetry. apply Nat.mod_small. exact Hk.
  - unfold absorb1 at 2. destruct (Nat.eqb_spec (S k) r) as [E|E].
    + rewrite IH by (cbn; lia). cbn [snd]. replace (k + S (length l)) with (length l + 1 * r) by lia.
      rewrite Nat.mod_add by lia. reflexivity.
    + rewrite IH by (cbn; lia). cbn [snd]. f_equal. lia.
Qed.

(** ** The padding *)
Lemma length_pad_tail r k : k < r -> length (pad_tail r k) = r - k.
Proof.
  intros H. unfold pad_tail. destruct (Nat.eqb_spec k (r - 1)); [cbn; lia|].
  rewrite !app_length, length_zeros. cbn. lia.
Qed.

Lemma bytes_ok_pad_tail r k : bytes_ok (pad_tail r k).
Proof.
  unfold pad_tail. destruct (k =? r - 1).
  - repeat constructor.
  - apply bytes_ok_app; split; [repeat constructor|]. apply bytes_ok_app; split; [apply bytes_ok_zeros|repeat constructor].
Qed.

Lemma pad_tail_bits r k : k < r ->
  bytes_bits (pad_tail r k) = [true; true; true; true] ++ [true] ++ repeat false (8 * (r - 1 - k) + 2) ++ [true].
Proof.
  intros H. unfold pad_tail. destruct (Nat.eqb_spec k (r - 1)) as [E|E].
  - replace (r - 1 - k) with 0 by lia. reflexivity.
  - rewrite !bytes_bits_app, bytes_bits_zeros.
    replace (8 * (r - 1 - k) + 2) with (3 + (8 * (r - 2 - k) + 7)) by lia. rewrite !repeat_app.
    rewrite <- !app_assoc. reflexivity.
Qed.

Lemma padded_bits r D : 0 < r ->
  bytes_bits (D ++ pad_tail r (length D mod r)) =
  let M := bytes_bits D ++ [true; true; true; true] in M ++ pad101 (8 * r) (length M).
Proof.
  intros Hr. cbv zeta. rewrite bytes_bits_app.
  assert (Hk : length D mod r < r) by (apply Nat.mod_upper_bound; lia).
  rewrite pad_tail_bits by exact Hk. rewrite <- app_assoc. f_equal. f_equal. unfold pad101. f_equal. f_equal. f_equal.
  rewrite app_length, length_bytes_bits. cbn [length].
  assert (E : length D = r * (length D / r) + length D mod r) by (apply Nat.div_mod; lia).
  set (q := length D / r) in *. set (k := length D mod r) in *. clearbody q k. rewrite E.
  replace (8 * (r * q + k) + 4 + 2) with ((8 * k + 6) + q * (8 * r)) by lia. rewrite Nat.mod_add by lia.
  rewrite (Nat.mod_small (8 * k + 6)) by lia. rewrite Nat.mod_small by lia. lia.
Qed.

Lemma length_padded r D : 0 < r -> length (D ++ pad_tail r (length D mod r)) = r * (length D / r + 1).
Proof.
  intros Hr. assert (Hk : length D mod r < r) by (apply Nat.mod_upper_bound; lia).
  rewrite app_length, length_pad_tail by exact Hk.
  pose proof (Nat.div_mod (length D) r ltac:(lia)). lia.
Qed.

(** The state after absorbing [D] and the padding. *)
Definition final_state (r : nat) (D : bytes) : bytes :=
  fst (fold_left (absorb1 r) (D ++ pad_tail r (length D mod r)) (zeros 200, 0)).

Lemma wfs_zeros : wfs (zeros 200).
Proof. split; [apply length_zeros|apply bytes_ok_zeros]. Qed.

Lemma final_state_ok r D : 0 < r <= 200 -> bytes_ok D ->
  wfs (final_state r D) /\
  bytes_bits (final_state r D) =
  absorbed (8 * r) (let M := bytes_bits D ++ [true; true; true; true] in M ++ pad101 (8 * r) (length M)).
Proof.
  intros Hr HD. rewrite <- padded_bits by lia.
  destruct (absorb_all r Hr (length D / r + 1) (D ++ pad_tail r (length D mod r)) (zeros 200)) as (_ & W & E).
  - apply bytes_ok_app; split; [exact HD|apply bytes_ok_pad_tail].
  - apply wfs_zeros.
  - apply length_padded. lia.
  - split; [exact W|]. unfold final_state. rewrite E. unfold absorbed, blocks.
    rewrite length_bytes_bits, length_padded by lia.
    replace (8 * (r * (length D / r + 1)) / (8 * r)) with (length D / r + 1).
    + rewrite bytes_bits_zeros. reflexivity.
    + replace (8 * (r * (length D / r + 1))) with ((length D / r + 1) * (8 * r)) by lia.
      rewrite Nat.div_mul by lia. reflexivity.
Qed.

(** ** Squeezing from position 0 *)
Lemma flat_map_shift {B} (f : nat -> list B) a n :
  flat_map f (seq (S a) n) = flat_map (fun i => f (S i)) (seq a n).
Proof. revert a. induction n as [|n IH]; intros a; [reflexivity|]. cbn [seq flat_map]. rewrite IH. reflexivity. Qed.

Lemma iter_S {A} (f : A -> A) n x : Nat.iter (S n) f x = Nat.iter n f (f x).
Proof. induction n as [|n IH]; [reflexivity|]. change (f (Nat.iter (S n) f x) = f (Nat.iter n f (f x))). rewrite IH. reflexivity. Qed.

Lemma sqn_blocks r : 0 < r <= 200 -> forall m s, wfs s ->
  fst (sqn r (r * m) (s, 0)) = flat_map (fun i => firstn r (Nat.iter i Fp s)) (seq 0 m).
Proof.
  intros Hr. induction m as [|m IH]; intros s Hs; [rewrite Nat.mul_0_r; reflexivity|].
  assert (HL : length s = 200) by apply Hs.
  replace (r * S m) with (r + r * m) by lia. rewrite sqn_add.
  rewrite (sqn_part r s ltac:(lia) r 0) by lia. cbn [fst snd seq flat_map].
  change (Nat.iter 0 Fp s) with s. f_equal. rewrite flat_map_shift. rewrite Nat.add_0_l.
  destruct m as [|m]; [rewrite Nat.mul_0_r; reflexivity|].
  rewrite sqn_perm by lia. rewrite IH by (apply wfs_Fp; exact Hs).
  apply flat_map_ext. intros i. rewrite iter_S. reflexivity.
Qed.

Lemma iter_Fp i s : wfs s -> wfs (Nat.iter i Fp s) /\ bytes_bits (Nat.iter i Fp s) = Nat.iter i keccak_f (bytes_bits s).
Proof.
  intros H. induction i as [|i [IH1 IH2]]; [auto|]. cbn [Nat.iter nat_rect].
  destruct (permute_eq _ IH1) as (_ & W & E). split; [exact W|]. etransitivity; [exact E|]. rewrite IH2. reflexivity.
Qed.

Lemma bytes_bits_flat_map {A} (f : A -> bytes) l : bytes_bits (flat_map f l) = flat_map (fun a => bytes_bits (f a)) l.
Proof. induction l as [|a l IH]; [reflexivity|]. cbn [flat_map]. rewrite bytes_bits_app, IH. reflexivity. Qed.

Lemma sqn_prefix r n m p : fst (sqn r n p) = firstn n (fst (sqn r (n + m) p)).
Proof.
  rewrite sqn_add. cbn [fst]. rewrite firstn_app, length_sqn, Nat.sub_diag. cbn [firstn]. rewrite app_nil_r.
  symmetry. apply firstn_all2. rewrite length_sqn. lia.
Qed.

Lemma sqn_squeezed r n s : 0 < r <= 200 -> wfs s ->
  bytes_bits (fst (sqn r n (s, 0))) = squeezed (8 * r) (8 * n) (bytes_bits s).
Proof.
  intros Hr Hs. unfold squeezed. set (m := (8 * n + 8 * r - 1) / (8 * r)).
  assert (Hm : n <= r * m).
  { unfold m. pose proof (Nat.div_mod (8 * n + 8 * r - 1) (8 * r) ltac:(lia)) as E.
    pose proof (Nat.mod_upper_bound (8 * n + 8 * r - 1) (8 * r) ltac:(lia)) as B. nia. }
  rewrite (sqn_prefix r n (r * m - n)). replace (n + (r * m - n)) with (r * m) by lia.
  rewrite sqn_blocks by assumption. rewrite <- firstn_bytes_bits. f_equal. rewrite bytes_bits_flat_map.
  apply flat_map_ext. intros i. rewrite <- firstn_bytes_bits. destruct (iter_Fp i s Hs) as [_ ->]. reflexivity.
Qed.
