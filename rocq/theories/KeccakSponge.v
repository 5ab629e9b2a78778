(** The sponge of the code, byte by byte. *)

From Coq Require Import List NArith Arith Bool Lia.
From Verif Require Import Base Params Env Spec BaseFacts Keccak KeccakSpec KeccakPerm.
Import ListNotations.

Definition wfs (st : bytes) : Prop := length st = 200 /\ bytes_ok st.

Definition Fp (st : bytes) : bytes := match SnP_Permute st with Ok s => s | _ => [] end.

Lemma permute_eq st : wfs st ->
  SnP_Permute st = Ok (Fp st) /\ wfs (Fp st) /\ bytes_bits (Fp st) = keccak_f (bytes_bits st).
Proof.
  intros [HL HB]. pose proof (permute_ok st HL HB) as H. apply ok_ex in H as (s & E & H).
  unfold Fp. rewrite E. split; [reflexivity|]. destruct H as (A & B & C). repeat split; assumption.
Qed.

Lemma wfs_Fp st : wfs st -> wfs (Fp st).
Proof. intros H. apply (permute_eq st H). Qed.

Global Opaque SnP_Permute Fp.

(** ** Modular arithmetic *)
Lemma u32_small n : (N.of_nat n < 2 ^ 32)%N -> u32 n = n.
Proof. intros H. unfold u32. rewrite N.mod_small by exact H. apply Nat2N.id. Qed.

Lemma u64_small n : (N.of_nat n < 2 ^ 64)%N -> u64 n = n.
Proof. intros H. unfold u64. rewrite N.mod_small by exact H. apply Nat2N.id. Qed.

(** ** Adding bytes to the state *)
Fixpoint xor_at (st : bytes) (off : nat) (l : bytes) : bytes :=
  match l with
  | [] => st
  | x :: l' => xor_at (list_set st off (N.lxor (nth off st 0%N) x)) (S off) l'
  end.

Lemma length_xor_at l : forall st off, length (xor_at st off l) = length st.
Proof.
  induction l as [|x l IH]; intros st off; [reflexivity|]. cbn [xor_at]. rewrite IH. apply length_list_set.
Qed.

Lemma nth_xor_at l : forall st off j, off + length l <= length st ->
  nth j (xor_at st off l) 0%N =
  N.lxor (nth j st 0%N) (if (off <=? j) && (j <? off + length l) then nth (j - off) l 0%N else 0%N).
Proof.
  induction l as [|x l IH]; intros st off j H; cbn [xor_at length] in *.
  - destruct (Nat.leb_spec off j); destruct (Nat.ltb_spec j (off + 0)); cbn [andb]; rewrite ?N.lxor_0_r; try reflexivity; lia.
  - rewrite IH by (rewrite length_list_set; lia). rewrite nth_list_set by lia.
    destruct (Nat.eq_dec j off) as [->|Hj].
    + rewrite Nat.eqb_refl.
      destruct (Nat.leb_spec (S off) off); [lia|]. cbn [andb]. rewrite N.lxor_0_r.
      destruct (Nat.leb_spec off off); [|lia]. destruct (Nat.ltb_spec off (off + S (length l))); [|lia].
      cbn [andb]. rewrite Nat.sub_diag. reflexivity.
    + destruct (Nat.eqb_spec j off); [lia|].
      destruct (Nat.leb_spec (S off) j); destruct (Nat.leb_spec off j); try lia; cbn [andb]; [|reflexivity].
      destruct (Nat.ltb_spec j (S off + length l)); destruct (Nat.ltb_spec j (off + S (length l))); try lia; try reflexivity.
      replace (j - off) with (S (j - S off)) by lia. reflexivity.
Qed.

Lemma xor_at_wfs l st off : wfs st -> bytes_ok l -> off + length l <= 200 -> wfs (xor_at st off l).
Proof.
  intros [HL HB] Hl Ho. split; [rewrite length_xor_at; exact HL|].
  revert st off HL HB Ho. induction l as [|x l IH]; intros st off HL HB Ho; [exact HB|].
  cbn [xor_at]. inversion Hl; subst. cbn [length] in Ho. apply IH; auto; [rewrite length_list_set; exact HL| |lia].
  apply Forall_list_set; [exact HB|]. apply byte_lxor; [apply bytes_ok_nth; exact HB|assumption].
Qed.

Lemma firstn_skipn_S {A} (l : list A) c n d : c < length l ->
  firstn (S n) (skipn c l) = nth c l d :: firstn n (skipn (S c) l).
Proof.
  revert c. induction l as [|x l IH]; intros c H; [cbn in H; lia|].
  destruct c as [|c]; [reflexivity|]. cbn [skipn nth]. cbn [length] in H. rewrite IH by lia. reflexivity.
Qed.

Lemma AddBytes_loop n : forall st data cur offset i, offset + i + n <= length st -> length st <= 200 ->
  cur + i + n <= length data ->
  for_loop n i (fun i st =>
    d <- rd data (cur + i) ;;
    s <- rd st (u32 (offset + i)) ;;
    wr st (u32 (offset + i)) (N.lxor s d)) st = Ok (xor_at st (offset + i) (firstn n (skipn (cur + i) data))).
Proof.
  induction n as [|n IH]; intros st data cur offset i H1 H2 H3; [reflexivity|].
  cbn [for_loop]. rewrite (rd_ok data _ 0%N) by lia. cbn [bind].
  rewrite u32_small by lia. rewrite (rd_ok st _ 0%N) by lia. cbn [bind]. rewrite wr_ok by lia. cbn [bind].
  rewrite (IH _ data cur offset (S i)) by (rewrite ?length_list_set; lia).
  rewrite firstn_skipn_S with (d := 0%N) by lia. cbn [xor_at].
  rewrite <- !Nat.add_succ_r. reflexivity.
Qed.

Lemma AddBytes_eq st data cur offset n : wfs st -> offset < 200 -> offset + n <= 200 -> cur + n <= length data ->
  KeccakP1600_AddBytes st data cur offset n = Ok (xor_at st offset (firstn n (skipn cur data))).
Proof.
  intros [HL HB] H0 H1 H2. unfold KeccakP1600_AddBytes.
  rewrite c_assert_true by (apply Nat.ltb_lt; lia). cbn [bind]. rewrite u32_small by lia.
  rewrite c_assert_true by (apply Nat.leb_le; lia). cbn [bind].
  rewrite (AddBytes_loop n st data cur offset 0) by lia. rewrite !Nat.add_0_r. reflexivity.
Qed.

(** ** Absorbing one byte *)
Definition absorb1 (r : nat) (p : bytes * nat) (b : N) : bytes * nat :=
  let '(st, k) := p in
  let st' := list_set st k (N.lxor (nth k st 0%N) b) in
  if S k =? r then (Fp st', 0) else (st', S k).

Lemma absorb_part r l : forall st k, k + length l < r ->
  fold_left (absorb1 r) l (st, k) = (xor_at st k l, k + length l).
Proof.
  induction l as [|x l IH]; intros st k H; cbn [fold_left xor_at length] in *; [rewrite Nat.add_0_r; reflexivity|].
  unfold absorb1 at 2. destruct (Nat.eqb_spec (S k) r); [lia|]. rewrite IH by lia. f_equal. lia.
Qed.

Lemma absorb_fill r l : forall st k, l <> [] -> k + length l = r ->
  fold_left (absorb1 r) l (st, k) = (Fp (xor_at st k l), 0).
Proof.
  induction l as [|x l IH]; intros st k H0 H; [congruence|]. cbn [fold_left xor_at length] in *.
  unfold absorb1 at 2. destruct (Nat.eqb_spec (S k) r) as [E|E].
  - destruct l as [|y l]; [reflexivity|cbn [length] in H; lia].
  - apply IH; [|lia]. destruct l; [cbn [length] in H; lia|discriminate].
Qed.

Lemma absorb1_wf r p b : wfs (fst p) -> byte b -> snd p < r -> r <= 200 ->
  wfs (fst (absorb1 r p b)) /\ snd (absorb1 r p b) < r.
Proof.
  destruct p as [st k]. cbn [fst snd]. intros Hs Hb Hk Hr. unfold absorb1.
  assert (W : wfs (list_set st k (N.lxor (nth k st 0%N) b))).
  { destruct Hs as [HL HB]. split; [rewrite length_list_set; exact HL|].
    apply Forall_list_set; [exact HB|]. apply byte_lxor; [apply bytes_ok_nth; exact HB|exact Hb]. }
  destruct (Nat.eqb_spec (S k) r); cbn [fst snd]; (split; [try apply wfs_Fp; exact W|lia]).
Qed.

Lemma absorb_wf r l : forall p, wfs (fst p) -> bytes_ok l -> snd p < r -> r <= 200 ->
  wfs (fst (fold_left (absorb1 r) l p)) /\ snd (fold_left (absorb1 r) l p) < r.
Proof.
  induction l as [|x l IH]; intros p Hs Hl Hk Hr; [auto|]. cbn [fold_left]. inversion Hl; subst.
  destruct (absorb1_wf r p x) as [A B]; auto.
Qed.

Lemma firstn_add {A} (l : list A) n m : firstn (n + m) l = firstn n l ++ firstn m (skipn n l).
Proof.
  revert l. induction n as [|n IH]; intros l; [reflexivity|].
  destruct l as [|x l]; [rewrite !firstn_nil; reflexivity|]. cbn [Nat.add firstn skipn app]. rewrite IH. reflexivity.
Qed.

Lemma skipn_add {A} (l : list A) n m : skipn m (skipn n l) = skipn (n + m) l.
Proof.
  revert l. induction n as [|n IH]; intros l; [reflexivity|].
  destruct l as [|x l]; [rewrite !skipn_nil; reflexivity|]. cbn [Nat.add skipn]. apply IH.
Qed.

Lemma firstn_skipn_split {A} (l : list A) c n m :
  firstn (n + m) (skipn c l) = firstn n (skipn c l) ++ firstn m (skipn (c + n) l).
Proof. rewrite firstn_add, skipn_add. reflexivity. Qed.

Lemma length_firstn_skipn {A} (l : list A) c n : c + n <= length l -> length (firstn n (skipn c l)) = n.
Proof. intros H. rewrite firstn_length, skipn_length. lia. Qed.

Lemma absorb_blocks_ok r data : 0 < r <= 200 -> bytes_ok data -> forall fuel j cur st,
  wfs st -> cur + j <= length data -> j < fuel ->
  exists st' q, absorb_blocks fuel r data j cur st = Ok (st', cur + q, j - q) /\
    q <= j /\ j - q < r /\ (r <= j -> 0 < q) /\ wfs st' /\
    fold_left (absorb1 r) (firstn q (skipn cur data)) (st, 0) = (st', 0).
Proof.
  intros Hr HD. induction fuel as [|fuel IH]; intros j cur st Hs Hc Hf; [lia|].
  cbn [absorb_blocks]. destruct (Nat.leb_spec r j) as [L|L].
  - rewrite AddBytes_eq by (auto; lia). cbn [bind].
    assert (Hl : bytes_ok (firstn r (skipn cur data))) by (apply bytes_ok_slice; exact HD).
    assert (Ll : length (firstn r (skipn cur data)) = r) by (apply length_firstn_skipn; lia).
    assert (W : wfs (xor_at st 0 (firstn r (skipn cur data)))) by (apply xor_at_wfs; auto; lia).
    destruct (permute_eq _ W) as (E & W' & _). rewrite E. cbn [bind].
    destruct (IH (j - r) (cur + r) _ W') as (st' & q & E' & Hq & Hr' & _ & Ws & F); [lia|lia|].
    exists st', (r + q). rewrite E'. split; [f_equal; f_equal; [f_equal|]; lia|].
    split; [lia|]. split; [lia|]. split; [lia|]. split; [exact Ws|].
    rewrite firstn_skipn_split, fold_left_app.
    rewrite absorb_fill by (first [lia | intros Cn; rewrite Cn in Ll; cbn in Ll; lia]). exact F.
  - exists st, 0. split; [f_equal; f_equal; [f_equal|]; lia|]. split; [lia|]. split; [lia|]. split; [lia|].
    split; [exact Hs|]. reflexivity.
Qed.

Definition set_pos (inst : SpongeInstance) (p : bytes * nat) : SpongeInstance :=
  mkSponge (fst p) (sp_rate inst) (snd p) (squeezing inst).
Definition pos (inst : SpongeInstance) : bytes * nat := (sp_state inst, byteIOIndex inst).

(** The lengths the absorbing loop handles at position [k]. *)
Definition fitsn (r k n : nat) : Prop :=
  (k = 0%nat \/ (N.of_nat n mod 2 ^ 32 + N.of_nat k < 2 ^ 32 /\
             (N.of_nat n < 2 ^ 32 \/ N.of_nat r <= N.of_nat n mod 2 ^ 32 + N.of_nat k)))%N.

Lemma u32_N n : N.of_nat (u32 n) = (N.of_nat n mod 2 ^ 32)%N.
Proof. unfold u32. apply N2Nat.id. Qed.

(** The number of bytes taken by one iteration. *)
Lemma partial_ok r k n : 0 < r <= 200 -> k < r -> 0 < n -> fitsn r k n -> (k = 0 -> n < r) ->
  let pb := if r <? u32 (u32 n + k) then r - k else u32 n in
  0 < pb /\ pb <= n /\ k + pb <= r /\ (k + pb = r \/ pb = n).
Proof.
  intros Hr Hk Hn HF H0. pose proof (u32_N n) as EN.
  assert (LE : u32 n <= n).
  { pose proof (N.mod_le (N.of_nat n) (2 ^ 32) ltac:(discriminate)) as L. rewrite <- EN in L. lia. }
  destruct HF as [->|[F1 F2]].
  - specialize (H0 eq_refl). rewrite (u32_small n) in * by lia. rewrite (u32_small (n + 0)) by lia.
    destruct (Nat.ltb_spec r (n + 0)); cbv zeta; lia.
  - rewrite <- EN in *. rewrite (u32_small (u32 n + k)) by lia.
    destruct F2 as [F2|F2].
    + rewrite (u32_small n) in * by lia. destruct (Nat.ltb_spec r (n + k)); cbv zeta; lia.
    + destruct (Nat.ltb_spec r (u32 n + k)); cbv zeta; lia.
Qed.

Lemma absorb_loop_ok r data len : 0 < r <= 200 -> bytes_ok data -> len <= length data -> forall fuel i inst,
  wfs (sp_state inst) -> byteIOIndex inst < r -> i <= len -> len - i < fuel ->
  fitsn r (byteIOIndex inst) (len - i) ->
  absorb_loop fuel r data len i i inst =
  Ok (set_pos inst (fold_left (absorb1 r) (firstn (len - i) (skipn i data)) (pos inst))).
Proof.
  intros Hr HD Hlen. induction fuel as [|fuel IH]; intros i inst Hs Hk Hi Hf HF; [lia|].
  cbn [absorb_loop]. destruct (Nat.ltb_spec i len) as [L|L].
  2:{ replace (len - i) with 0 by lia. destruct inst; reflexivity. }
  destruct ((byteIOIndex inst =? 0) && (i + r <=? len)) eqn:C.
  - apply andb_true_iff in C as [E0 L1]. apply Nat.eqb_eq in E0. apply Nat.leb_le in L1.
    destruct (absorb_blocks_ok r data Hr HD (S (len - i)) (len - i) i (sp_state inst)) as (st' & q & E & Hq & Hr' & Hq0 & Ws & F);
      [exact Hs|lia|lia|].
    rewrite E. cbn [bind].
    replace (len - (len - i - q)) with (i + q) by lia.
    rewrite IH by (cbn [sp_state byteIOIndex set_state]; auto; try lia; left; exact E0).
    f_equal. unfold set_pos, set_state. cbn [sp_rate squeezing].
    replace (len - i) with (q + (len - (i + q))) by lia.
    rewrite firstn_skipn_split, fold_left_app. unfold pos. cbn [sp_state byteIOIndex]. rewrite !E0, F. reflexivity.
  - set (k := byteIOIndex inst) in *.
    assert (C0 : k = 0 -> len - i < r).
    { intros E0. rewrite E0 in C. cbn [Nat.eqb andb] in C. apply Nat.leb_gt in C. lia. }
    destruct (partial_ok r k (len - i) Hr Hk ltac:(lia) HF C0) as (P1 & P2 & P3 & P4).
    set (pb := if r <? u32 (u32 (len - i) + k) then r - k else u32 (len - i)) in *. clearbody pb.
    rewrite AddBytes_eq by (auto; lia). cbn [bind]. rewrite (u32_small (k + pb)) by lia.
    set (l := firstn pb (skipn i data)).
    assert (Ll : length l = pb) by (apply length_firstn_skipn; lia).
    assert (Hl : bytes_ok l) by (apply bytes_ok_slice; exact HD).
    assert (W : wfs (xor_at (sp_state inst) k l)) by (apply xor_at_wfs; auto; lia).
    cbn [byteIOIndex set_idx set_state sp_state sp_rate squeezing].
    destruct (Nat.eqb_spec (k + pb) r) as [Er|Er].
    + destruct (permute_eq _ W) as (E & W' & _). rewrite E. cbn [bind].
      rewrite IH by (cbn [sp_state byteIOIndex set_idx set_state]; auto; try lia; left; reflexivity).
      f_equal. unfold set_pos, set_idx, set_state. cbn [sp_rate squeezing sp_state byteIOIndex].
      replace (len - i) with (pb + (len - (i + pb))) by lia.
      rewrite firstn_skipn_split, fold_left_app. fold l. unfold pos. cbn [sp_state byteIOIndex]. fold k.
      rewrite (absorb_fill r l (sp_state inst) k) by (first [lia | intros Cn; rewrite Cn in Ll; cbn in Ll; lia]). reflexivity.
    + destruct P4 as [P4|P4]; [lia|]. cbn [bind].
      rewrite IH; [|cbn [sp_state byteIOIndex set_idx set_state]; auto; lia..|].
      2:{ right. replace (len - (i + pb)) with 0 by lia. cbn [byteIOIndex set_idx]. change (N.of_nat 0 mod 2 ^ 32)%N with 0%N. lia. }
      f_equal. unfold set_pos, set_idx, set_state. cbn [sp_rate squeezing sp_state byteIOIndex].
      replace (len - i) with (pb + (len - (i + pb))) by lia.
      rewrite firstn_skipn_split, fold_left_app. fold l. unfold pos. cbn [sp_state byteIOIndex]. fold k.
      rewrite (absorb_part r l (sp_state inst) k) by lia. rewrite Ll. reflexivity.
Qed.

Lemma absorb_ok fuel r inst data : sp_rate inst / 8 = r -> 0 < r <= 200 -> bytes_ok data ->
  fitsn r (byteIOIndex inst) (length data) -> wfs (sp_state inst) -> byteIOIndex inst < r ->
  squeezing inst = false -> length data < fuel ->
  SpongeAbsorb fuel inst data (length data) = Ok (0, set_pos inst (fold_left (absorb1 r) data (pos inst))).
Proof.
  intros Er Hr HD HF Hs Hk Hq Hf. unfold SpongeAbsorb. rewrite Hq, Er.
  rewrite absorb_loop_ok by (auto; rewrite ?Nat.sub_0_r; auto; lia). cbn [bind]. rewrite Nat.sub_0_r. cbn [skipn].
  rewrite firstn_all. reflexivity.
Qed.

(** What happens to other lengths: the loop runs past the state, or never ends. *)
Lemma absorb_overrun fuel r data inst : 0 < r <= 200 -> length (sp_state inst) = 200 ->
  byteIOIndex inst < r ->
  (2 ^ 32 <= N.of_nat (length data) mod 2 ^ 32 + N.of_nat (byteIOIndex inst))%N -> 0 < fuel ->
  absorb_loop fuel r data (length data) 0 0 inst = UB.
Proof.
  intros Hr LS Hk L Hf. destruct fuel as [|fuel]; [lia|]. cbn [absorb_loop]. rewrite Nat.sub_0_r.
  set (k := byteIOIndex inst) in *. set (w := u32 (length data)).
  assert (EW : N.of_nat w = (N.of_nat (length data) mod 2 ^ 32)%N) by apply u32_N. rewrite <- EW in L.
  assert (WB : (N.of_nat w < 2 ^ 32)%N) by (rewrite EW; apply N.mod_lt; discriminate).
  assert (LE : w <= length data).
  { pose proof (N.mod_le (N.of_nat (length data)) (2 ^ 32) ltac:(discriminate)) as B. rewrite <- EW in B. lia. }
  clearbody w. clear EW.
  destruct (Nat.ltb_spec 0 (length data)) as [_|C]; [|lia].
  destruct (Nat.eqb_spec k 0) as [C|_]; [lia|]. cbn [andb].
  assert (EU : N.of_nat (u32 (w + k)) = (N.of_nat w + N.of_nat k - 2 ^ 32)%N).
  { rewrite u32_N, Nat2N.inj_add.
    replace (N.of_nat w + N.of_nat k)%N with ((N.of_nat w + N.of_nat k - 2 ^ 32) + 1 * 2 ^ 32)%N at 1 by lia.
    rewrite N.mod_add by discriminate. apply N.mod_small. lia. }
  destruct (Nat.ltb_spec r (u32 (w + k))) as [C|_]; [lia|].
  unfold KeccakP1600_AddBytes. rewrite c_assert_true by (apply Nat.ltb_lt; lia). cbn [bind].
  rewrite (Nat.add_comm k w). rewrite c_assert_true by (apply Nat.leb_le; lia). cbn [bind].
  replace w with ((200 - k) + (w - (200 - k))) at 1 by lia. rewrite for_loop_app.
  rewrite (AddBytes_loop (200 - k) (sp_state inst) data 0 k 0) by lia. cbn [bind].
  destruct (w - (200 - k)) as [|m] eqn:Em; [lia|]. cbn [for_loop]. rewrite Nat.add_0_l.
  rewrite (rd_ok data _ 0%N) by lia. cbn [bind]. rewrite u32_small by lia. unfold rd at 1.
  match goal with |- context [nth_error ?l ?i] => replace (nth_error l i) with (@None N) end; [reflexivity|].
  symmetry. apply nth_error_None. rewrite length_xor_at. lia.
Qed.

Lemma absorb_stuck r data len i : i < len -> (N.of_nat (len - i) mod 2 ^ 32 = 0)%N -> 0 < r <= 200 -> forall fuel cur inst,
  byteIOIndex inst <> 0 -> byteIOIndex inst < r -> absorb_loop fuel r data len i cur inst = NoFuel.
Proof.
  intros Hi Hlen Hr. induction fuel as [|fuel IH]; intros cur inst H0 Hk; [reflexivity|].
  cbn [absorb_loop]. destruct (Nat.ltb_spec i len) as [_|C]; [|lia].
  destruct (Nat.eqb_spec (byteIOIndex inst) 0) as [C|_]; [lia|]. cbn [andb].
  assert (EU : u32 (len - i) = 0) by (apply Nat2N.inj; rewrite u32_N, Hlen; reflexivity).
  rewrite EU, !Nat.add_0_l, (u32_small (byteIOIndex inst)) by lia.
  destruct (Nat.ltb_spec r (byteIOIndex inst)) as [C|_]; [lia|].
  unfold KeccakP1600_AddBytes. rewrite c_assert_true by (apply Nat.ltb_lt; lia). cbn [bind].
  rewrite !Nat.add_0_r. rewrite (u32_small (byteIOIndex inst)) by lia.
  rewrite c_assert_true by (apply Nat.leb_le; lia). cbn [bind for_loop set_idx set_state byteIOIndex].
  destruct (Nat.eqb_spec (byteIOIndex inst) r) as [C|_]; [lia|]. cbn [bind].
  apply IH; cbn [byteIOIndex]; assumption.
Qed.

Lemma absorb_stuck_later fuel r data inst : 0 < r <= 200 -> wfs (sp_state inst) ->
  0 < byteIOIndex inst < r ->
  (2 ^ 32 <= N.of_nat (length data))%N ->
  (N.of_nat (length data) mod 2 ^ 32 + N.of_nat (byteIOIndex inst) < N.of_nat r)%N ->
  absorb_loop fuel r data (length data) 0 0 inst = NoFuel.
Proof.
  intros Hr Hs Hk L1 L2. set (k := byteIOIndex inst) in *. set (w := u32 (length data)).
  assert (EW : N.of_nat w = (N.of_nat (length data) mod 2 ^ 32)%N) by apply u32_N. rewrite <- EW in L2.
  destruct (Nat.eq_dec w 0) as [E0|E0].
  { apply absorb_stuck; auto; fold k; try lia. }
  destruct fuel as [|fuel]; [reflexivity|]. cbn [absorb_loop]. rewrite Nat.sub_0_r. fold w k.
  destruct (Nat.ltb_spec 0 (length data)) as [_|C]; [|lia].
  destruct (Nat.eqb_spec k 0) as [C|_]; [lia|]. cbn [andb].
  rewrite (u32_small (w + k)) by lia. destruct (Nat.ltb_spec r (w + k)) as [C|_]; [lia|].
  rewrite AddBytes_eq by (auto; lia). cbn [bind]. rewrite (u32_small (k + w)) by lia.
  cbn [byteIOIndex set_idx set_state sp_state sp_rate squeezing].
  destruct (Nat.eqb_spec (k + w) r) as [C|_]; [lia|]. cbn [bind].
  apply absorb_stuck; cbn [byteIOIndex set_idx]; try lia.
Qed.

(** ** The padding *)
Definition pad_tail (r k : nat) : bytes :=
  if k =? r - 1 then [0x9F%N] else [0x1F%N] ++ zeros (r - 2 - k) ++ [0x80%N].

Lemma list_set_same {A} (l : list A) k d : list_set l k (nth k l d) = l.
Proof. revert k. induction l as [|x l IH]; intros [|k]; cbn [list_set nth]; try reflexivity. rewrite IH. reflexivity. Qed.

Lemma absorb_zeros r n : forall st k, k + n < r -> fold_left (absorb1 r) (zeros n) (st, k) = (st, k + n).
Proof.
  induction n as [|n IH]; intros st k H; [cbn; f_equal; lia|].
  change (zeros (S n)) with (0%N :: zeros n). cbn [fold_left]. unfold absorb1 at 2.
  rewrite N.lxor_0_r, list_set_same. destruct (Nat.eqb_spec (S k) r); [lia|]. rewrite IH by lia. f_equal. lia.
Qed.

Lemma list_set_twice {A} (l : list A) k x y : list_set (list_set l k x) k y = list_set l k y.
Proof. revert k. induction l as [|a l IH]; intros [|k]; cbn [list_set]; try reflexivity. rewrite IH. reflexivity. Qed.

Lemma AddByte_eq st b k : wfs st -> k < 200 ->
  KeccakP1600_AddByte st b k = Ok (list_set st k (N.lxor (nth k st 0%N) b)).
Proof.
  intros [HL HB] Hk. unfold KeccakP1600_AddByte. rewrite c_assert_true by (apply Nat.ltb_lt; exact Hk).
  cbn [bind]. rewrite (rd_ok st k 0%N) by lia. cbn [bind]. apply wr_ok. lia.
Qed.

Lemma wfs_set st k b : wfs st -> byte b -> wfs (list_set st k (N.lxor (nth k st 0%N) b)).
Proof.
  intros [HL HB] Hb. split; [rewrite length_list_set; exact HL|].
  apply Forall_list_set; [exact HB|]. apply byte_lxor; [apply bytes_ok_nth; exact HB|exact Hb].
Qed.

Lemma last_bits_ok r inst : sp_rate inst / 8 = r -> 0 < r <= 200 -> wfs (sp_state inst) ->
  byteIOIndex inst < r -> squeezing inst = false ->
  let p := fold_left (absorb1 r) (pad_tail r (byteIOIndex inst)) (pos inst) in
  snd p = 0 /\
  SpongeAbsorbLastFewBits inst 0x1F = Ok (0, set_squeezing (set_pos inst p)).
Proof.
  intros Er Hr Hs Hk Hq. unfold SpongeAbsorbLastFewBits. rewrite Er, Hq.
  change (N.eqb 0x1F 0) with false. change (N.leb 128 0x1F) with false. cbn [andb].
  set (k := byteIOIndex inst) in *. set (st := sp_state inst) in *.
  rewrite AddByte_eq by (auto; lia). cbn [bind].
  assert (W : wfs (list_set st k (N.lxor (nth k st 0%N) 31))) by (apply wfs_set; [exact Hs|reflexivity]).
  rewrite AddByte_eq by (auto; lia). cbn [bind].
  assert (W2 := wfs_set _ (r - 1) 128%N W eq_refl).
  destruct (permute_eq _ W2) as (E & W' & _). rewrite E. cbn [bind].
  unfold pos. fold k st. unfold pad_tail. destruct (Nat.eqb_spec k (r - 1)) as [Ek|Ek].
  - cbn [fold_left]. unfold absorb1. destruct (Nat.eqb_spec (S k) r); [|lia]. cbn [fst snd].
    split; [reflexivity|]. unfold set_squeezing, set_idx, set_state, set_pos. cbn [sp_rate sp_state byteIOIndex fst snd].
    do 4 f_equal. rewrite <- Ek. rewrite list_set_twice. f_equal.
    rewrite nth_list_set by (destruct Hs as [-> _]; lia). rewrite Nat.eqb_refl. rewrite N.lxor_assoc. reflexivity.
  - rewrite !fold_left_app. cbn [fold_left]. unfold absorb1 at 3 6. destruct (Nat.eqb_spec (S k) r); [lia|].
    rewrite absorb_zeros by lia. unfold absorb1. replace (S k + (r - 2 - k)) with (r - 1) by lia.
    destruct (Nat.eqb_spec (S (r - 1)) r); [|lia]. cbn [fst snd]. split; [reflexivity|]. reflexivity.
Qed.

(** ** Squeezing one byte *)
Definition sq1 (r : nat) (p : bytes * nat) : N * (bytes * nat) :=
  let '(s, k) := if snd p =? r then (Fp (fst p), 0) else p in (nth k s 0%N, (s, S k)).

Fixpoint sqn (r n : nat) (p : bytes * nat) : bytes * (bytes * nat) :=
  match n with
  | O => ([], p)
  | S n' => let '(b, p1) := sq1 r p in let '(l, p2) := sqn r n' p1 in (b :: l, p2)
  end.

Lemma sqn_add r n m p : sqn r (n + m) p =
  (fst (sqn r n p) ++ fst (sqn r m (snd (sqn r n p))), snd (sqn r m (snd (sqn r n p)))).
Proof.
  revert p. induction n as [|n IH]; intros p; [cbn; destruct (sqn r m p); reflexivity|].
  cbn [Nat.add sqn]. destruct (sq1 r p) as [b p1]. rewrite IH. destruct (sqn r n p1) as [l p2]. reflexivity.
Qed.

Lemma length_sqn r n p : length (fst (sqn r n p)) = n.
Proof.
  revert p. induction n as [|n IH]; intros p; [reflexivity|]. cbn [sqn].
  destruct (sq1 r p) as [b p1]. specialize (IH p1). destruct (sqn r n p1). cbn [fst length] in *. lia.
Qed.

Lemma sqn_part r (s : bytes) : r <= length s -> forall n k, k + n <= r ->
  sqn r n (s, k) = (firstn n (skipn k s), (s, k + n)).
Proof.
  intros Hr. induction n as [|n IH]; intros k H; [cbn; rewrite Nat.add_0_r; reflexivity|].
  cbn [sqn]. unfold sq1. cbn [fst snd]. destruct (Nat.eqb_spec k r); [lia|].
  rewrite IH by lia. rewrite firstn_skipn_S with (d := 0%N) by lia. rewrite Nat.add_succ_r. reflexivity.
Qed.

Lemma sqn_perm r s n : 0 < r -> 0 < n -> sqn r n (s, r) = sqn r n (Fp s, 0).
Proof.
  intros Hr Hn. destruct n as [|n]; [lia|]. cbn [sqn]. unfold sq1. cbn [fst snd]. rewrite Nat.eqb_refl.
  destruct (Nat.eqb_spec 0 r); [lia|]. reflexivity.
Qed.

Lemma Extract_eq st d cur off n : wfs st -> off < 200 -> off + n <= 200 -> cur + n <= length d ->
  KeccakP1600_ExtractBytes st d cur off n = Ok (blit_list d cur (firstn n (skipn off st))).
Proof.
  intros [HL HB] H0 H1 H2. unfold KeccakP1600_ExtractBytes.
  rewrite c_assert_true by (apply Nat.ltb_lt; lia). cbn [bind]. rewrite u32_small by lia.
  rewrite c_assert_true by (apply Nat.leb_le; lia). cbn [bind].
  rewrite slice_ok by lia. cbn [bind]. apply blit_ok. rewrite length_firstn_skipn by lia. exact H2.
Qed.

Lemma blit_blit {A} (d : list A) cur a b : cur + length a + length b <= length d ->
  blit_list (blit_list d cur a) (cur + length a) b = blit_list d cur (a ++ b).
Proof.
  intros H. destruct d as [|e d]; [cbn in H; destruct a, b; cbn in H; try lia; destruct cur; cbn in H; try lia; reflexivity|].
  apply (list_ext e).
  - rewrite !length_blit_list; rewrite ?length_blit_list, ?app_length; lia.
  - intros i Hi. rewrite !nth_blit_list; rewrite ?length_blit_list, ?app_length; try lia.
    repeat match goal with
    | |- context [?x <? ?y] => destruct (Nat.ltb_spec x y)
    | |- context [?x <=? ?y] => destruct (Nat.leb_spec x y)
    end; cbn [andb]; try reflexivity; try lia;
    rewrite ?app_nth1 by lia; rewrite ?app_nth2 by lia; try reflexivity; try lia; f_equal; lia.
Qed.
