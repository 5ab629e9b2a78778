(** Facts about keys: key I/O, key generation, validation. *)

From Coq Require Import List NArith Arith Bool Lia ZifyBool ZifyNat ZifyN.
From Verif Require Import Base Params Env Spec LowMC Tree Picnic1 Picnic3 Api ApiSpec.
From Verif Require Import BaseFacts ParamFacts LowMCFacts.
Import ListNotations.

Lemma wfP_block P : wfP P -> stateSizeBytes P <= 4 * stateSizeWords P /\ stateSizeBytes P <= 32.
Proof.
  intros []. pose proof (numBytes_spec (stateSizeBits P)). lia.
Qed.

Lemma padding_zero_block P b : padding_zero P (block P b) <-> padding_zero P b.
Proof.
  unfold padding_zero, block; split; intros H i Hi.
  - rewrite <- (bit_firstn b (stateSizeBytes P)) by lia. auto.
  - rewrite bit_firstn by lia. auto.
Qed.

Lemma arePaddingBitsZero_P P b :
  wfP P -> stateSizeBytes P <= length b ->
  exists v, arePaddingBitsZero b (stateSizeBits P) = Ok v /\ (v = true <-> padding_zero P b).
Proof.
  intros HP Hl. unfold padding_zero. rewrite (wf_sB P HP) in *.
  apply arePaddingBitsZero_spec; auto.
Qed.

Lemma split_at {A} n (l : list A) : n <= length l -> exists a b, l = a ++ b /\ length a = n.
Proof.
  intros. exists (firstn n l), (skipn n l). rewrite firstn_skipn, firstn_length. split; auto. lia.
Qed.

Lemma skipn_exact {A} n (a b : list A) : length a = n -> skipn n (a ++ b) = b.
Proof. intros <-. rewrite skipn_app, skipn_all, Nat.sub_diag. reflexivity. Qed.

Lemma firstn_exact {A} n (a b : list A) : length a = n -> firstn n (a ++ b) = a.
Proof. intros <-. rewrite firstn_app, firstn_all, Nat.sub_diag. simpl. apply app_nil_r. Qed.

Lemma blit_app_at {A} (a b c src : list A) off :
  length a = off -> length src = length b -> blit (a ++ b ++ c) off src = Ok (a ++ src ++ c).
Proof.
  intros <- Hs. unfold blit. rewrite !app_length, Hs.
  replace (length a + length b <=? length a + (length b + length c)) with true by lia.
  rewrite firstn_exact by auto.
  rewrite (app_assoc a b c), (skipn_exact (length a + length b)) by (rewrite app_length; auto).
  reflexivity.
Qed.

Lemma app_inj_len {A} (a b c d : list A) : a ++ b = c ++ d -> length a = length c -> a = c /\ b = d.
Proof.
  revert c; induction a as [|x a IH]; intros [|y c] H Hl; simpl in *; try lia; auto.
  injection H as -> H. destruct (IH c H ltac:(lia)) as [-> ->]. auto.
Qed.

Lemma get_param_set_byte p P : get_param_set p = Some P -> (p < 13)%N /\ is_valid_params p = true.
Proof.
  intros H. destruct (N.lt_ge_cases p 13).
  - split; auto. unfold is_valid_params, PARAMETER_SET_MAX_INDEX.
    destruct (N.eq_dec p 0) as [->|]; [discriminate|lia].
  - rewrite get_param_set_none in H by auto. discriminate.
Qed.

Lemma get_param_set_valid p : is_valid_params p = true -> exists P, get_param_set p = Some P.
Proof.
  intros H. unfold is_valid_params, PARAMETER_SET_MAX_INDEX in H.
  assert (p = 1 \/ p = 2 \/ p = 3 \/ p = 4 \/ p = 5 \/ p = 6 \/ p = 7 \/ p = 8 \/
          p = 9 \/ p = 10 \/ p = 11 \/ p = 12)%N as Hc by lia.
  repeat (destruct Hc as [->|Hc]; [eexists; reflexivity|]). subst; eexists; reflexivity.
Qed.

Lemma length_block P b : wfP P -> length b = 32 -> length (block P b) = stateSizeBytes P.
Proof. intros HP Hl. destruct (wfP_block P HP). unfold block. rewrite firstn_length. lia. Qed.

(** ** Public key I/O *)
Lemma write_public_key_spec pk P buf buflen :
  get_param_set (pk_params pk) = Some P -> pk_wf pk -> buflen <= length buf ->
  1 + 2 * stateSizeBytes P <= buflen ->
  picnic_write_public_key (Some pk) (Some buf) buflen =
  Ok (Some (1 + 2 * stateSizeBytes P),
      Some (pk_encoding P pk ++ skipn (1 + 2 * stateSizeBytes P) buf)).
Proof.
  intros HP [[Hpl _] [Hcl _]] Hb Hl. unfold picnic_write_public_key. rewrite HP.
  pose proof (get_param_set_wfP _ _ HP) as Hw. destruct (wfP_block P Hw) as [_ Hn].
  destruct (get_param_set_byte _ _ HP) as [Hp _].
  set (n := stateSizeBytes P) in *.
  replace (buflen <? 1 + 2 * n) with false by lia.
  destruct buf as [|b0 buf]; [simpl in *; lia|]. simpl length in *.
  destruct (split_at n buf) as (x & buf1 & -> & Hx); [lia|]. rewrite app_length in Hb.
  destruct (split_at n buf1) as (y & r & -> & Hy); [lia|].
  rewrite wr_ok by (simpl; lia). cbn [bind list_set]. rewrite N.mod_small by lia.
  rewrite slice0_ok by lia. cbn [bind list_set].
  pose proof (length_block P _ Hw Hcl) as Hcl'. pose proof (length_block P _ Hw Hpl) as Hpl'.
  fold n in Hcl', Hpl'. unfold block in Hcl', Hpl'. fold n in Hcl', Hpl'.
  change (pk_params pk :: x ++ y ++ r) with ([pk_params pk] ++ x ++ (y ++ r)).
  rewrite blit_app_at by (simpl; lia). cbn [bind list_set].
  rewrite slice0_ok by lia. cbn [bind list_set].
  rewrite (app_assoc [pk_params pk]). rewrite blit_app_at by (rewrite ?app_length; simpl; lia).
  cbn [bind list_set].
  assert (Hsk : skipn (1 + 2 * n) (b0 :: x ++ y ++ r) = r).
  { change (1 + 2 * n) with (S (2 * n)). cbn [skipn].
    rewrite app_assoc, skipn_exact; auto. rewrite app_length; lia. }
  rewrite Hsk. unfold pk_encoding, block. fold n. cbn [app]. rewrite <- !app_assoc. reflexivity.
Qed.

(** What the reader of public keys does, for every buffer. *)
Lemma read_public_key_spec k b :
  pk_wf k ->
  ok (picnic_read_public_key (Some k) (Some b))
     (fun '(r, k') =>
        exists key', k' = Some key' /\
        (bytes_ok b -> pk_wf key') /\
        (r = true <-> starts_with_pk b) /\
        (r = true ->
         exists P, get_param_set (pk_params key') = Some P /\
           b = pk_encoding P key' ++ skipn (1 + 2 * stateSizeBytes P) b /\
           pk_padding_zero P key' /\
           skipn (stateSizeBytes P) (pk_plaintext key') = skipn (stateSizeBytes P) (pk_plaintext k) /\
           skipn (stateSizeBytes P) (pk_ciphertext key') =
           skipn (stateSizeBytes P) (pk_ciphertext k))).
Proof.
  intros Hk. pose proof Hk as [[Hpl Hpb] [Hcl Hcb]]. unfold picnic_read_public_key.
  destruct b as [|p b]; simpl length.
  { simpl. exists k. split; auto. split; auto. split; [|discriminate].
    split; [discriminate|]. intros (P & c & t & rest & p & _ & H & _). discriminate. }
  replace (S (length b) <? 1) with false by lia. cbn [rd nth_error bind].
  destruct (is_valid_params p) eqn:Hv; cbn [negb].
  2:{ simpl. exists k. split; auto. split; auto. split; [|discriminate].
      split; [discriminate|]. intros (P & c & t & rest & p' & HP & H & _).
      injection H as <- _. apply get_param_set_byte in HP. destruct HP. congruence. }
  destruct (get_param_set_valid p Hv) as [P HP]. rewrite HP.
  pose proof (get_param_set_wfP _ _ HP) as Hw. destruct (wfP_block P Hw) as [_ Hn].
  set (n := stateSizeBytes P) in *.
  destruct (Nat.ltb_spec (S (length b)) (1 + 2 * n)) as [Hs|Hs].
  { simpl. eexists. split; [reflexivity|].
    split; [intros; split; split; auto|]. split; [|discriminate].
    split; [discriminate|]. intros (P' & c & t & rest & p' & HP' & H & Hc & Ht & _).
    injection H as <- ->. rewrite HP in HP'. injection HP' as <-.
    rewrite !app_length in Hs. fold n in Hc, Ht. lia. }
  destruct (split_at n b) as (c & b1 & -> & Hc); [lia|]. rewrite app_length in Hs.
  destruct (split_at n b1) as (t & r & -> & Ht); [lia|].
  assert (Hs1 : slice (p :: c ++ t ++ r) 1 n = Ok c).
  { replace (p :: c ++ t ++ r) with ([p] ++ c ++ t ++ r) by reflexivity.
    apply slice_app_off; simpl; lia. }
  rewrite Hs1. cbn [bind].
  rewrite blit_ok by (simpl; lia). cbn [bind].
  assert (Hs2 : slice (p :: c ++ t ++ r) (1 + n) n = Ok t).
  { replace (p :: c ++ t ++ r) with ((p :: c) ++ t ++ r) by reflexivity.
    apply slice_app_off; simpl; lia. }
  rewrite Hs2. cbn [bind]. rewrite blit_ok by (simpl; lia). cbn [bind pk_ciphertext pk_plaintext].
  set (ct := blit_list _ _ c). set (pt := blit_list _ _ t).
  assert (Hct : length ct = 32) by (unfold ct; rewrite length_blit_list; simpl; lia).
  assert (Hpt : length pt = 32) by (unfold pt; rewrite length_blit_list; simpl; lia).
  assert (Hcf : ct = c ++ skipn n (pk_ciphertext k)).
  { unfold ct, blit_list. cbn [firstn app]. rewrite Hc. reflexivity. }
  assert (Hpf : pt = t ++ skipn n (pk_plaintext k)).
  { unfold pt, blit_list. cbn [firstn app]. rewrite Ht. reflexivity. }
  destruct (arePaddingBitsZero_P P ct Hw ltac:(fold n; lia)) as (vc & -> & Hvc). cbn [bind].
  destruct (arePaddingBitsZero_P P pt Hw ltac:(fold n; lia)) as (vp & -> & Hvp).
  assert (Hpc : padding_zero P ct <-> padding_zero P c).
  { rewrite <- padding_zero_block. unfold block. fold n. rewrite Hcf, firstn_exact by auto. tauto. }
  assert (Hpp : padding_zero P pt <-> padding_zero P t).
  { rewrite <- padding_zero_block. unfold block. fold n. rewrite Hpf, firstn_exact by auto. tauto. }
  assert (Hwf : bytes_ok (p :: c ++ t ++ r) -> pk_wf (mkPk p pt ct)).
  { intros Hb. inversion Hb as [|? ? _ Hb']; subst.
    apply Forall_app in Hb'. destruct Hb' as [Hb1 Hb2]. apply Forall_app in Hb2.
    split; split; auto; simpl; apply bytes_ok_blit; tauto. }
  assert (Hst : starts_with_pk (p :: c ++ t ++ r) <-> (padding_zero P c /\ padding_zero P t)).
  { split.
    - intros (P' & c' & t' & r' & p' & HP' & He & Hc' & Ht' & H1 & H2).
      injection He as <- He. rewrite HP in HP'. injection HP' as <-. fold n in Hc', Ht'.
      apply app_inj_len in He; [|lia]. destruct He as [-> He].
      apply app_inj_len in He; [|lia]. destruct He as [-> He]. auto.
    - intros [H1 H2]. exists P, c, t, r, p. auto 10. }
  assert (Hsk : skipn (1 + 2 * n) (p :: c ++ t ++ r) = r).
  { change (1 + 2 * n) with (S (2 * n)). cbn [skipn].
    rewrite app_assoc, skipn_exact; auto. rewrite app_length; lia. }
  destruct vc; cbn [negb bind ok].
  - exists (mkPk p pt ct). split; auto. split; auto. rewrite Hst.
    split; [tauto|]. intros ->. exists P. split; auto. fold n. rewrite Hsk.
    split.
    { unfold pk_encoding, block. fold n. cbn [pk_params pk_ciphertext pk_plaintext].
      rewrite Hcf, Hpf, !firstn_exact by auto. cbn [app]. rewrite <- app_assoc. reflexivity. }
    split; [split; simpl; tauto|].
    cbn [pk_plaintext pk_ciphertext]. rewrite Hcf, Hpf, !skipn_exact by auto. auto.
  - exists (mkPk p pt ct). split; auto. split; auto. rewrite Hst.
    split; [|discriminate]. split; [discriminate|]. intros [H1 _].
    apply Hpc, Hvc in H1. discriminate.
Qed.

(** ** Private key I/O *)
Lemma write_private_key_spec sk P buf buflen :
  get_param_set (sk_params sk) = Some P -> sk_wf sk -> buflen <= length buf ->
  1 + 3 * stateSizeBytes P <= buflen ->
  picnic_write_private_key (Some sk) (Some buf) buflen =
  Ok (Some (1 + 3 * stateSizeBytes P),
      Some (sk_encoding P sk ++ skipn (1 + 3 * stateSizeBytes P) buf)).
Proof.
  intros HP [[Hdl _] [[Hpl _] [Hcl _]]] Hb Hl. unfold picnic_write_private_key. rewrite HP.
  pose proof (get_param_set_wfP _ _ HP) as Hw. destruct (wfP_block P Hw) as [_ Hn].
  destruct (get_param_set_byte _ _ HP) as [Hp _].
  set (n := stateSizeBytes P) in *.
  replace (buflen <? 1 + 3 * n) with false by lia.
  destruct buf as [|b0 buf]; [simpl in *; lia|]. simpl length in *.
  destruct (split_at n buf) as (x & buf1 & -> & Hx); [lia|]. rewrite app_length in Hb.
  destruct (split_at n buf1) as (y & buf2 & -> & Hy); [lia|]. rewrite app_length in Hb.
  destruct (split_at n buf2) as (z & r & -> & Hz); [lia|].
  rewrite wr_ok by (simpl; lia). cbn [bind list_set]. rewrite N.mod_small by lia.
  rewrite slice0_ok by lia. cbn [bind].
  pose proof (length_block P _ Hw Hcl) as Hcl'. pose proof (length_block P _ Hw Hpl) as Hpl'.
  pose proof (length_block P _ Hw Hdl) as Hdl'.
  fold n in Hcl', Hpl', Hdl'. unfold block in Hcl', Hpl', Hdl'. fold n in Hcl', Hpl', Hdl'.
  change (sk_params sk :: x ++ y ++ z ++ r) with ([sk_params sk] ++ x ++ (y ++ z ++ r)).
  rewrite blit_app_at by (simpl; lia). cbn [bind].
  rewrite slice0_ok by lia. cbn [bind].
  rewrite (app_assoc [sk_params sk]). rewrite blit_app_at by (rewrite ?app_length; simpl; lia).
  cbn [bind]. rewrite slice0_ok by lia. cbn [bind].
  rewrite (app_assoc ([sk_params sk] ++ _)).
  rewrite blit_app_at by (rewrite ?app_length; simpl; lia). cbn [bind].
  assert (Hsk : skipn (1 + 3 * n) (b0 :: x ++ y ++ z ++ r) = r).
  { change (1 + 3 * n) with (S (3 * n)). cbn [skipn].
    rewrite (app_assoc x), (app_assoc (x ++ y)), skipn_exact; auto. rewrite !app_length; lia. }
  rewrite Hsk. unfold sk_encoding, block. fold n. cbn [app]. rewrite <- !app_assoc. reflexivity.
Qed.

(** A block read into a zeroed array. *)
Lemma blit_zero_block c n : length c = n -> n <= 32 ->
  blit zero_block 0 c = Ok (c ++ zeros (32 - n)).
Proof.
  intros <- Hn. unfold zero_block, PICNIC_MAX_LOWMC_BLOCK_SIZE.
  rewrite blit_ok by (rewrite length_zeros; simpl; lia). unfold blit_list. cbn [firstn app Nat.add].
  f_equal. f_equal. unfold zeros. rewrite <- (firstn_skipn (length c) (repeat 0%N 32)) at 1.
  remember (length c) as m. clear Heqm.
  rewrite firstn_skipn. rewrite <- (repeat_length 0%N (32 - m)) at 1.
  replace 32 with (m + (32 - m)) at 1 by lia. rewrite repeat_app, skipn_exact by apply repeat_length.
  rewrite repeat_length. reflexivity.
Qed.

Lemma block_wf_app c n : length c = n -> n <= 32 -> bytes_ok c -> block_wf (c ++ zeros (32 - n)).
Proof.
  intros. split.
  - rewrite app_length, length_zeros. lia.
  - apply Forall_app. split; auto. apply bytes_ok_zeros.
Qed.

Lemma block_app P c t : length c = stateSizeBytes P -> block P (c ++ t) = c.
Proof. apply firstn_exact. Qed.

Lemma read_private_key_spec k b :
  ok (picnic_read_private_key (Some k) (Some b))
     (fun '(r, k') =>
        exists key', k' = Some key' /\
        (bytes_ok b -> sk_wf k -> sk_wf key') /\
        (r = true <-> starts_with_sk b) /\
        (r = true ->
         exists P, get_param_set (sk_params key') = Some P /\
           b = sk_encoding P key' ++ skipn (1 + 3 * stateSizeBytes P) b /\
           sk_padding_zero P key' /\ pk_params (sk_pk key') = sk_params key' /\
           (let tail := zeros (32 - stateSizeBytes P) in
            skipn (stateSizeBytes P) (sk_data key') = tail /\
            skipn (stateSizeBytes P) (pk_plaintext (sk_pk key')) = tail /\
            skipn (stateSizeBytes P) (pk_ciphertext (sk_pk key')) = tail))).
Proof.
  assert (Hzb : block_wf zero_block) by (split; [reflexivity|apply bytes_ok_zeros]).
  unfold picnic_read_private_key.
  destruct b as [|p b]; simpl length.
  { simpl. exists k. split; auto. split; auto. split; [|discriminate].
    split; [discriminate|]. intros (P & d & c & t & rest & p & _ & H & _). discriminate. }
  replace (S (length b) <? 1) with false by lia. cbn [rd nth_error bind].
  destruct (is_valid_params p) eqn:Hv; cbn [negb].
  2:{ simpl. exists k. split; auto. split; auto. split; [|discriminate].
      split; [discriminate|]. intros (P & d & c & t & rest & p' & HP & H & _).
      injection H as <- _. apply get_param_set_byte in HP. destruct HP. congruence. }
  destruct (get_param_set_valid p Hv) as [P HP]. rewrite HP.
  pose proof (get_param_set_wfP _ _ HP) as Hw. destruct (wfP_block P Hw) as [_ Hn].
  set (n := stateSizeBytes P) in *.
  destruct (Nat.ltb_spec (S (length b)) (1 + 3 * n)) as [Hs|Hs].
  { simpl. eexists. split; [reflexivity|].
    split; [intros; split; [|split]; auto|]. split; [|discriminate].
    split; [discriminate|]. intros (P' & d & c & t & rest & p' & HP' & H & Hd & Hc & Ht & _).
    injection H as <- ->. rewrite HP in HP'. injection HP' as <-.
    rewrite !app_length in Hs. fold n in Hd, Hc, Ht. lia. }
  destruct (split_at n b) as (d & b1 & -> & Hd); [lia|]. rewrite app_length in Hs.
  destruct (split_at n b1) as (c & b2 & -> & Hc); [lia|]. rewrite app_length in Hs.
  destruct (split_at n b2) as (t & r & -> & Ht); [lia|].
  assert (Hs1 : slice (p :: d ++ c ++ t ++ r) 1 n = Ok d).
  { replace (p :: d ++ c ++ t ++ r) with ([p] ++ d ++ c ++ t ++ r) by reflexivity.
    apply slice_app_off; simpl; lia. }
  assert (Hs2 : slice (p :: d ++ c ++ t ++ r) (1 + n) n = Ok c).
  { replace (p :: d ++ c ++ t ++ r) with ((p :: d) ++ c ++ t ++ r) by reflexivity.
    apply slice_app_off; simpl; lia. }
  assert (Hs3 : slice (p :: d ++ c ++ t ++ r) (1 + 2 * n) n = Ok t).
  { replace (p :: d ++ c ++ t ++ r) with ((p :: d ++ c) ++ t ++ r)
      by (cbn [app]; rewrite <- app_assoc; reflexivity).
    apply slice_app_off; simpl; rewrite ?app_length; lia. }
  rewrite Hs1. cbn [bind]. rewrite (blit_zero_block d n) by auto. cbn [bind].
  rewrite Hs2. cbn [bind]. rewrite (blit_zero_block c n) by auto. cbn [bind].
  rewrite Hs3. cbn [bind]. rewrite (blit_zero_block t n) by auto. cbn [bind].
  assert (Hll : forall x, length x = n -> stateSizeBytes P <= length (x ++ zeros (32 - n))).
  { intros x Hx. rewrite app_length, length_zeros. fold n. lia. }
  assert (Hpz : forall x, length x = n ->
             (padding_zero P (x ++ zeros (32 - n)) <-> padding_zero P x)).
  { intros x Hx. rewrite <- padding_zero_block, block_app by auto. tauto. }
  destruct (arePaddingBitsZero_P P (d ++ zeros (32 - n)) Hw (Hll d Hd)) as (vd & -> & Hvd).
  destruct (arePaddingBitsZero_P P (c ++ zeros (32 - n)) Hw (Hll c Hc)) as (vc & -> & Hvc).
  destruct (arePaddingBitsZero_P P (t ++ zeros (32 - n)) Hw (Hll t Ht)) as (vp & -> & Hvp).
  rewrite Hpz in Hvd, Hvc, Hvp by auto.
  set (key' := mkSk p (d ++ zeros (32 - n)) (mkPk p (t ++ zeros (32 - n)) (c ++ zeros (32 - n)))).
  assert (Hwf : bytes_ok (p :: d ++ c ++ t ++ r) -> sk_wf key').
  { intros Hb. inversion Hb as [|? ? _ Hb']; subst.
    apply Forall_app in Hb'. destruct Hb' as [Hb1 Hb2]. apply Forall_app in Hb2.
    destruct Hb2 as [Hb2 Hb3]. apply Forall_app in Hb3.
    split; [|split]; apply block_wf_app; tauto. }
  assert (Hst : starts_with_sk (p :: d ++ c ++ t ++ r) <->
                (padding_zero P d /\ padding_zero P c /\ padding_zero P t)).
  { split.
    - intros (P' & d' & c' & t' & r' & p' & HP' & He & Hd' & Hc' & Ht' & H1 & H2 & H3).
      injection He as <- He. rewrite HP in HP'. injection HP' as <-. fold n in Hd', Hc', Ht'.
      apply app_inj_len in He; [|lia]. destruct He as [-> He].
      apply app_inj_len in He; [|lia]. destruct He as [-> He].
      apply app_inj_len in He; [|lia]. destruct He as [-> He]. auto.
    - intros (H1 & H2 & H3). exists P, d, c, t, r, p. auto 12. }
  assert (Hsk : skipn (1 + 3 * n) (p :: d ++ c ++ t ++ r) = r).
  { change (1 + 3 * n) with (S (3 * n)). cbn [skipn].
    rewrite (app_assoc d), (app_assoc (d ++ c)), skipn_exact; auto. rewrite !app_length; lia. }
  cbn [bind].
  destruct vd; cbn [negb bind].
  2:{ cbn [ok]. exists key'. split; auto. split; auto. rewrite Hst. split; [|discriminate].
      split; [discriminate|]. intros (H1 & _). apply Hvd in H1. discriminate. }
  destruct vc; cbn [negb bind].
  2:{ cbn [ok]. exists key'. split; auto. split; auto. rewrite Hst. split; [|discriminate].
      split; [discriminate|]. intros (_ & H1 & _). apply Hvc in H1. discriminate. }
  cbn [ok]. exists key'. split; auto. split; auto. rewrite Hst. split; [tauto|].
  intros ->. exists P. split; auto. fold n. rewrite Hsk. split.
  { unfold sk_encoding, key'. cbn [sk_params sk_data sk_pk pk_params pk_ciphertext pk_plaintext].
    rewrite !block_app by auto. cbn [app]. rewrite <- !app_assoc. reflexivity. }
  split.
  { split; [|split]; cbn [key' sk_data sk_pk pk_ciphertext pk_plaintext]; apply Hpz; tauto. }
  split; auto.
  cbn [key' sk_data sk_pk pk_ciphertext pk_plaintext]. rewrite !skipn_exact by auto. auto.
Qed.

Lemma bytes_ok_block P b : bytes_ok b -> bytes_ok (block P b).
Proof. apply Forall_firstn. Qed.

Lemma bytes_ok_pk_encoding P pk :
  get_param_set (pk_params pk) = Some P -> pk_wf pk -> bytes_ok (pk_encoding P pk).
Proof.
  intros HP [[_ H1] [_ H2]]. apply get_param_set_byte in HP.
  constructor; [unfold byte; lia|]. apply Forall_app; split; apply bytes_ok_block; auto.
Qed.

Lemma bytes_ok_sk_encoding P sk :
  get_param_set (sk_params sk) = Some P -> sk_wf sk -> bytes_ok (sk_encoding P sk).
Proof.
  intros HP [[_ H0] [[_ H1] [_ H2]]]. apply get_param_set_byte in HP.
  constructor; [unfold byte; lia|].
  apply Forall_app; split; [apply bytes_ok_block; auto|].
  apply Forall_app; split; apply bytes_ok_block; auto.
Qed.

Lemma read_write_public_key pk P k0 rest :
  get_param_set (pk_params pk) = Some P -> pk_wf pk -> pk_padding_zero P pk ->
  pk_wf k0 -> bytes_ok rest ->
  exists pk', picnic_read_public_key (Some k0) (Some (pk_encoding P pk ++ rest)) =
              Ok (true, Some pk') /\ pk_same P pk' pk.
Proof.
  intros HP Hwf [Hp1 Hp2] Hk0 Hrest. pose proof Hwf as [[Hpl _] [Hcl _]].
  pose proof (get_param_set_wfP _ _ HP) as Hw.
  pose proof (read_public_key_spec k0 (pk_encoding P pk ++ rest) Hk0) as H.
  apply ok_ex in H. destruct H as ([r k'] & Hr & key' & -> & Hwf' & Hiff & Hdat).
  assert (Ht : r = true).
  { apply Hiff. exists P, (block P (pk_ciphertext pk)), (block P (pk_plaintext pk)), rest,
      (pk_params pk). rewrite !padding_zero_block, !length_block by auto.
    split; auto. split; auto. unfold pk_encoding. cbn [app]. rewrite <- app_assoc. auto. }
  subst r. destruct (Hdat eq_refl) as (P' & HP' & He & _).
  exists key'. split; auto.
  destruct Hwf' as [[Hpl' _] [Hcl' _]].
  { apply Forall_app; split; auto. apply bytes_ok_pk_encoding; auto. }
  unfold pk_encoding in He. cbn [app] in He. rewrite <- !app_assoc in He. injection He as Hpar He.
  rewrite <- Hpar, HP in HP'. injection HP' as <-.
  apply app_inj_len in He; [|rewrite !length_block; auto]. destruct He as [H1 He].
  apply app_inj_len in He; [|rewrite !length_block; auto]. destruct He as [H2 _].
  repeat split; auto.
Qed.

Lemma read_write_private_key sk P k0 rest :
  get_param_set (sk_params sk) = Some P -> sk_wf sk -> sk_padding_zero P sk ->
  sk_wf k0 -> bytes_ok rest ->
  exists sk', picnic_read_private_key (Some k0) (Some (sk_encoding P sk ++ rest)) =
              Ok (true, Some sk') /\
    sk_params sk' = sk_params sk /\ pk_params (sk_pk sk') = sk_params sk /\
    sk_data sk' = block P (sk_data sk) ++ zeros (32 - stateSizeBytes P) /\
    pk_plaintext (sk_pk sk') = block P (pk_plaintext (sk_pk sk)) ++ zeros (32 - stateSizeBytes P) /\
    pk_ciphertext (sk_pk sk') = block P (pk_ciphertext (sk_pk sk)) ++ zeros (32 - stateSizeBytes P).
Proof.
  intros HP Hwf (Hp0 & Hp1 & Hp2) Hk0 Hrest. pose proof Hwf as [[Hdl _] [[Hpl _] [Hcl _]]].
  pose proof (get_param_set_wfP _ _ HP) as Hw.
  pose proof (read_private_key_spec k0 (sk_encoding P sk ++ rest)) as H.
  apply ok_ex in H. destruct H as ([r k'] & Hr & key' & -> & Hwf' & Hiff & Hdat).
  assert (Ht : r = true).
  { apply Hiff. exists P, (block P (sk_data sk)), (block P (pk_ciphertext (sk_pk sk))),
      (block P (pk_plaintext (sk_pk sk))), rest, (sk_params sk).
    rewrite !padding_zero_block, !length_block by auto.
    split; auto. split; auto 10. unfold sk_encoding. cbn [app]. rewrite <- !app_assoc. auto. }
  subst r. destruct (Hdat eq_refl) as (P' & HP' & He & _ & Hpp & Ht1 & Ht2 & Ht3).
  exists key'. split; auto.
  destruct Hwf' as [[Hdl' _] [[Hpl' _] [Hcl' _]]]; auto.
  { apply Forall_app; split; auto. apply bytes_ok_sk_encoding; auto. }
  unfold sk_encoding in He. cbn [app] in He. rewrite <- !app_assoc in He. injection He as Hpar He.
  rewrite <- Hpar, HP in HP'. injection HP' as <-.
  apply app_inj_len in He; [|rewrite !length_block; auto]. destruct He as [H0 He].
  apply app_inj_len in He; [|rewrite !length_block; auto]. destruct He as [H1 He].
  apply app_inj_len in He; [|rewrite !length_block; auto]. destruct He as [H2 _].
  split; [congruence|]. split; [congruence|].
  rewrite H0, H1, H2, <- Ht1, <- Ht2 at 1. rewrite <- Ht3 at 1.
  unfold block. rewrite !firstn_skipn. auto.
Qed.

(** ** NULL pointers and unknown parameter sets *)
Lemma write_public_key_unknown pk buf len :
  get_param_set (pk_params pk) = None ->
  picnic_write_public_key (Some pk) buf len = Ok (None, buf).
Proof. intros H. unfold picnic_write_public_key. rewrite H. destruct buf; auto. Qed.

Lemma write_private_key_unknown sk buf len :
  get_param_set (sk_params sk) = None ->
  picnic_write_private_key (Some sk) buf len = Ok (None, buf).
Proof. intros H. unfold picnic_write_private_key. rewrite H. destruct buf; auto. Qed.

(** ** Key generation and validation *)
Lemma zero_pk_wf : pk_wf zero_pk.
Proof. split; (split; [reflexivity|apply bytes_ok_zeros]). Qed.

Lemma zero_sk_wf : sk_wf zero_sk.
Proof. split; [split; [reflexivity|apply bytes_ok_zeros]|exact zero_pk_wf]. Qed.

Section Keys.
Variable E : env.
Hypothesis HE : env_bytes_ok E.

Lemma zero_block_wf : block_wf zero_block.
Proof. split; [reflexivity|apply bytes_ok_zeros]. Qed.

Lemma bit_zero_block i : bit zero_block i = false.
Proof. apply bit_zeros. Qed.

(** LowMC encryption as used by the API. *)
Lemma LowMCEnc_api P pt key :
  wfP P -> constants_ok E P -> block_wf pt -> block_wf key ->
  ok (LowMCEnc E P pt zero_block key)
     (fun o => block_wf o /\
        forall i, bit o i = if i <? stateSizeBits P
                            then lowmc_enc (lowmc_of E P) (bit key) (bit pt) i else false).
Proof.
  intros HP HC [Hpl Hpb] [Hkl Hkb]. destruct zero_block_wf as [Hzl Hzb].
  pose proof HP as Hw. destruct Hw.
  eapply ok_mono; [apply LowMCEnc_spec; auto; lia|].
  intros o (Hl & Hb & H). split; [split; auto; lia|].
  intros i. rewrite H. destruct (i <? stateSizeBits P); auto.
  destruct (i <? 32 * stateSizeWords P); auto. apply bit_zero_block.
Qed.

Lemma eqb_block P a b :
  wfP P -> block_wf a -> block_wf b ->
  (eqb_bytes (firstn (stateSizeBytes P) a) (firstn (stateSizeBytes P) b) = true <->
   forall i, i < 8 * stateSizeBytes P -> bit a i = bit b i).
Proof.
  intros HP [Hal Hab] [Hbl Hbb]. destruct (wfP_block P HP) as [_ Hn]. rewrite eqb_bytes_eq. split.
  - intros H i Hi. rewrite <- (bit_firstn a (stateSizeBytes P)), H by auto. apply bit_firstn; auto.
  - intros H. apply bits_ext; try (apply Forall_firstn; auto).
    + rewrite !firstn_length. lia.
    + intros i Hi. rewrite firstn_length in Hi. rewrite !bit_firstn by lia. apply H. lia.
Qed.

Lemma validate_spec sk pk P :
  get_param_set (pk_params pk) = Some P -> constants_ok E P -> sk_wf sk -> pk_wf pk ->
  ok (picnic_validate_keypair E (Some sk) (Some pk))
     (fun v => v = true <->
        sk_params sk = pk_params pk /\
        lowmc_relation E P (sk_data sk) (pk_plaintext pk) (pk_ciphertext pk)).
Proof.
  intros HP HC [Hsd _] [Hpt Hct]. unfold picnic_validate_keypair. rewrite HP.
  pose proof (get_param_set_wfP _ _ HP) as Hw. destruct (wfP_block P Hw) as [_ Hn].
  pose proof Hw as Hw'. destruct Hw'. pose proof (numBytes_spec (stateSizeBits P)).
  destruct (N.eqb_spec (sk_params sk) (pk_params pk)) as [He|He]; cbn [negb].
  2:{ cbn. split; [discriminate|tauto]. }
  destruct (get_param_set_byte _ _ HP) as [_ Hv]. rewrite He, Hv. cbn [negb].
  eapply ok_step; [apply LowMCEnc_api; auto|]. intros ct (Hcw & Hbits).
  rewrite memcmp_ok by (destruct Hcw, Hct; lia). cbn [ok].
  rewrite eqb_block by auto. unfold lowmc_relation, padding_zero. split.
  - intros Heq. split; auto. split; intros i Hi; rewrite <- Heq by lia; rewrite Hbits.
    + replace (i <? stateSizeBits P) with true by lia. auto.
    + replace (i <? stateSizeBits P) with false by lia. auto.
  - intros (_ & H1 & H2) i Hi. rewrite Hbits. destruct (Nat.ltb_spec i (stateSizeBits P)).
    + symmetry; auto.
    + symmetry; apply H2; lia.
Qed.

(** The array of [n] random bytes, as keygen prepares it. *)
Lemma random_block P r :
  wfP P -> length r = stateSizeBytes P -> bytes_ok r ->
  ok (data <- blit zero_block 0 r ;; zeroTrailingBits data (stateSizeBits P))
     (fun d => block_wf d /\ forall i, stateSizeBits P <= i -> bit d i = false).
Proof.
  intros HP Hl Hb. destruct (wfP_block P HP) as [_ Hn].
  rewrite (blit_zero_block r _ Hl Hn). cbn [bind].
  pose proof HP as Hw. destruct Hw.
  destruct (block_wf_app r _ Hl Hn Hb) as [Hl2 Hb2].
  eapply ok_mono; [apply zeroTrailingBits_spec; lia|].
  intros d (Hdl & Hdb & Hd). split; [split; auto; lia|].
  intros i Hi. rewrite Hd. replace (stateSizeBits P <=? i) with true by lia. cbn [andb].
  destruct (Nat.ltb_spec i (8 * numBytes (stateSizeBits P))); auto.
  unfold bit. rewrite app_nth2.
  - rewrite nth_zeros. apply N.bits_0.
  - apply Nat.div_le_lower_bound; lia.
Qed.

Lemma keygen_spec rng p pk0 sk0 :
  (forall P, get_param_set p = Some P -> constants_ok E P) -> rng_wf rng ->
  ok (picnic_keygen E rng p pk0 sk0)
     (fun '(r, pk, sk) =>
        r = (match get_param_set p with
             | Some P => fst (rng 0 (stateSizeBytes P)) && fst (rng 1 (stateSizeBytes P))
             | None => false end) /\
        (r = true ->
         exists P, get_param_set p = Some P /\
           pk_params pk = p /\ sk_params sk = p /\ sk_pk sk = pk /\ sk_wf sk /\ pk_wf pk /\
           lowmc_relation E P (sk_data sk) (pk_plaintext pk) (pk_ciphertext pk) /\
           (forall i, stateSizeBits P <= i ->
              bit (sk_data sk) i = false /\ bit (pk_plaintext pk) i = false /\
              bit (pk_ciphertext pk) i = false))).
Proof.
  intros HC Hrng. unfold picnic_keygen.
  destruct (is_valid_params p) eqn:Hv; cbn [negb].
  2:{ cbn. destruct (get_param_set p) eqn:HP; [|split; auto; discriminate].
      apply get_param_set_byte in HP. destruct HP; congruence. }
  destruct (get_param_set_valid p Hv) as [P HP]. rewrite HP. specialize (HC P HP).
  pose proof (get_param_set_wfP _ _ HP) as Hw. destruct (wfP_block P Hw) as [_ Hn].
  destruct (Hrng 0 (stateSizeBytes P)) as [H1l H1b].
  destruct (Hrng 1 (stateSizeBytes P)) as [H2l H2b].
  destruct (rng 0 (stateSizeBytes P)) as [ok1 r1].
  destruct (rng 1 (stateSizeBytes P)) as [ok2 r2]. cbn [fst snd] in *.
  pose proof (random_block P r1 Hw H1l H1b) as HR1.
  pose proof (random_block P r2 Hw H2l H2b) as HR2.
  rewrite (blit_zero_block r1 _ H1l Hn) in *. cbn [bind] in *.
  destruct ok1; cbn [negb andb].
  2:{ cbn. split; auto. discriminate. }
  eapply ok_step; [exact HR1|]. intros d (Hdw & Hd).
  rewrite (blit_zero_block r2 _ H2l Hn) in *. cbn [bind] in *.
  destruct ok2; cbn [negb].
  2:{ cbn. split; auto. discriminate. }
  eapply ok_step; [exact HR2|]. intros pt (Hptw & Hpt).
  eapply ok_step; [apply LowMCEnc_api; auto|]. intros ct (Hctw & Hct).
  cbn [ok]. split; auto. intros _. exists P. split; auto.
  repeat (split; [first [reflexivity | split; auto; split; auto]|]).
  split.
  - split.
    + intros i Hi. cbn [pk_ciphertext sk_data pk_plaintext]. rewrite Hct.
      replace (i <? stateSizeBits P) with true by lia. auto.
    + intros i Hi. cbn [pk_ciphertext]. rewrite Hct.
      replace (i <? stateSizeBits P) with false by lia. auto.
  - intros i Hi. cbn [pk_ciphertext sk_data pk_plaintext]. rewrite Hct.
    replace (i <? stateSizeBits P) with false by lia. auto.
Qed.

End Keys.
