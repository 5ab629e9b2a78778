(** The private key from a Picnic3 signature. *)

From Coq Require Import List NArith Arith Bool Lia ZifyBool ZifyNat ZifyN.
From Verif Require Import Base Params Env Spec LowMC Tree Picnic3 Api ApiSpec SigSpec BaseFacts ParamFacts LowMCFacts LowMCInj UtilFacts
  ApiFacts ZkbChal TreeShape TreeSeed P3Tape P3Aux P3Online P3Mask P3Chal P3Round P3Seeds P3Verify P3Sign P3Complete P3Codec P3Ext P3Api
  ZkbppSpec ZkbppProofs ZkbppProofs4 KkwSpec KkwTree KkwChal KkwNodes KkwOnline KkwSign KkwVerify LeakSpec.
Import ListNotations.

Local Opaque pack.

Section L.
Variable E : env.
Variable P : paramset.
Variable sp : sparams.
Hypothesis HP3 : wfP3 P.
Hypothesis CF : conforms P sp.
Hypothesis HE : env_bytes_ok E.
Hypothesis HX : xof_stream E.

Let n := stateSizeBits P.
Let W := stateSizeWords P.
Let sB := stateSizeBytes P.
Let tS := p3_tapeSize P.
Let dg := digestSizeBytes P.
Let T := numMPCRounds P.
Let Ki := spec_K0inv E P.

Variables (sk pub pt msg : bytes).
Hypothesis Hsk : 4 * W <= length sk.
Hypothesis Hskb : bytes_ok sk.
Hypothesis Hpt : 4 * W <= length pt.
Hypothesis Hpub : sB <= length pub.
Hypothesis Hpad : padding_zero P sk.
Variables (C L : list nat).
Hypothesis Hw : chal_wf P C L.
Hypothesis Hn : n <= 8 * dg.
Hypothesis Hdt : dg <= tS.

Let s := ssig E P sk pub pt msg C L.
Let Hr : sig3_raw P s := proj1 (ssig_raw E P HP3 sk pub pt msg HE Hsk Hpt Hpub C L Hw).
Let z := ksig_of P s.

Lemma shown_tape_eq t j k : t < T -> In t C -> party C L t <> 15 -> j < 16 -> k < n ->
  shown_tape E sp C L z t j k = tbit (stl0 E P sk pub pt msg t) j k.
Proof.
  intros Ht Hin Hu Hj Hk. unfold shown_tape.
  assert (Hv : vhid C L t = party C L t) by exact (vhid_eq P s Hr t Hin).
  assert (Ho : vopen z t = kopen_of (party C L t) (pf s t)) by exact (vopen_eq P s Hr t Hin Ht).
  rewrite Hv.
  destruct (Nat.eqb_spec j (party C L t)) as [->|Hne].
  - rewrite Ho. cbn [kopen_of ko_C].
    unfold s. rewrite (pf_sig E P sk pub pt msg C L t Ht Hin). cbn [q_C].
    unfold srow, row_full, stl0, tbit, tapes_of. rewrite !nth_map_seq by auto.
    unfold com. destruct (Nat.eqb_spec (party C L t) 15) as [|_]; [contradiction|].
    unfold hash. cbn [concat app]. fold dg tS.
    rewrite (HX _ _ dg tS Hdt). apply bit_firstn. lia.
  - etransitivity; [apply (vtp_eq E P sp HP3 CF HE s pub pt Hr Hpt Hpub t j k Ht Hj)|].
    + intros _. exact Hne.
    + unfold P3Verify.vtapes0, stl0. apply tapes_of_bit; auto. apply vseeds_open; auto.
Qed.

Lemma unmasked_key_eq t : In t C -> party C L t <> 15 -> unmasked_key E sp Ki C L z t = block P sk.
Proof.
  intros Hin Hu.
  assert (Ht : t < T) by (pose proof Hw as (_ & _ & H & _); rewrite Forall_forall in H; apply H; auto).
  unfold unmasked_key. pose proof (n_sB P HP3) as Hn8. fold n sB in Hn8.
  destruct (bytes_of_spec (sp_n sp) (vxor (bit (ko_key (vopen z t)))
     (matvec (sp_n sp) Ki (fun k => xsum (sp_N sp) (fun j => shown_tape E sp C L z t j k))))) as (B1 & B2 & B3).
  assert (Ho : octets (sp_n sp) = sB) by (symmetry; apply (cf_nB P sp CF)).
  assert (Hl : sB <= length sk) by (pose proof (sB_4W P HP3) as H4; fold sB W in H4; lia).
  apply bits_ext; auto.
  - rewrite B1. unfold block. rewrite firstn_length. fold sB. lia.
  - apply Forall_firstn; auto.
  - intros i Hi. rewrite B1, Ho in Hi. rewrite B3. unfold block. rewrite bit_firstn by (fold sB; lia).
    rewrite (sp_n_eq P sp CF). fold n. destruct (Nat.ltb_spec i n) as [Hin'|Hin'].
    + unfold vxor. assert (Hv : vopen z t = kopen_of (party C L t) (pf s t)) by exact (vopen_eq P s Hr t Hin Ht).
      rewrite Hv. cbn [kopen_of ko_key].
      unfold s. rewrite (pf_sig E P sk pub pt msg C L t Ht Hin). cbn [q_input]. rewrite bit_firstn by (fold sB; lia).
      rewrite (smk_key E P sk pub pt msg HP3 Hsk Hpt Hpub t i Hin'). unfold vxor.
      match goal with |- xorb (xorb ?a ?b) ?c = _ => replace c with b; [destruct a, b; reflexivity|] end.
      unfold mkey. fold n W. unfold Ki, spec_K0inv. fold W. apply matvec_ext. intros k Hk.
      unfold lam. replace (0 <? numRounds P) with true by (pose proof (wf_r P (w3_wfP P HP3)); lia).
      unfold tpar. rewrite (sp_N_eq P sp HP3 CF). apply xsum_ext. intros j Hj. symmetry.
      etransitivity; [apply (shown_tape_eq t j k); auto|]. f_equal; lia.
    + symmetry. rewrite (Hpad i) by (fold n sB; lia). reflexivity.
Qed.
End L.

Lemma digest_covers p P : get_param_set p = Some P -> is_picnic3 p = true ->
  stateSizeBits P <= 8 * digestSizeBytes P /\ digestSizeBytes P <= p3_tapeSize P.
Proof.
  intros HP H3.
  pose (ck := fun P => (stateSizeBits P <=? 8 * digestSizeBytes P) && (digestSizeBytes P <=? p3_tapeSize P)).
  assert (H : negb (is_picnic3 p) || ck P = true).
  { revert p P HP H3. intros p P HP _. revert p P HP.
    apply (params_forall (fun p P => negb (is_picnic3 p) || ck P)). vm_compute. reflexivity. }
  rewrite H3 in H. cbn [negb orb] in H. unfold ck in H. lia.
Qed.

Lemma C52_pf E p P sp fuel sk msg buf len buf' l :
  get_param_set p = Some P -> sk_params sk = p -> is_picnic3 p = true -> table2 p = Some sp ->
  env_bytes_ok E -> constants_ok E P -> inverses_ok E P -> xof_stream E ->
  sk_wf sk -> padding_zero P (sk_data sk) -> len <= length buf ->
  picnic_sign E fuel sk msg buf len = Ok (true, buf', l) ->
  key_from_signature E sp (spec_K0inv E P) fuel (firstn l buf') = Some (block P (sk_data sk)) \/
  exists LC LP, challenge E sp fuel (firstn (digestSizeBytes P) buf') = Some (LC, LP) /\
                forall t, In t LC -> unopened LC LP t = sp_N sp - 1.
Proof.
  intros HP Hp H3 Htab HE HC HI HX Wsk Hpad Hl Hs.
  pose proof (get_param_set_wfP3 _ _ HP H3) as HP3.
  destruct (table2_conforms p P HP) as (sp' & Htab' & CF).
  assert (sp' = sp) as -> by congruence.
  rewrite (sign3_eq E P p HP H3 HE HC HI fuel sk msg buf len Hp Wsk Hl) in Hs.
  destruct (eqb_bytes _ _) eqn:Er; [|discriminate].
  pose proof (schal_wf E P p HP H3 HE fuel sk msg) as Hw.
  destruct (schal E P fuel sk msg) as [[C L]| | |] eqn:Ex; cbn [bind] in Hs; try discriminate. cbn [okf fst snd] in Hw.
  cbv zeta in Hs. destruct (len <? _); [discriminate|]. injection Hs as <- <-.
  rewrite firstn_app, Nat.sub_diag, firstn_all, firstn_O, app_nil_r.
  pose proof Wsk as (W1 & W2 & W3).
  destruct (block_len P p HP H3 _ W1) as [L1 _]. destruct (block_len P p HP H3 _ W2) as [L2 _].
  destruct (block_len P p HP H3 _ W3) as [_ L3].
  unfold sbytes. cbn [fst snd]. set (s := ssig E P _ _ _ msg C L).
  destruct (ssig_raw E P HP3 _ _ _ msg HE L1 L2 L3 _ _ Hw) as [Hr Ha]. fold s in Hr, Ha.
  destruct (kparse_enc E P sp HP3 CF s Hr) as (b & Hb & Hk). rewrite Ha in Hk.
  pose proof Hr as (S1 & S2 & _).
  assert (Hch : challenge E sp fuel (g_challengeHash s) = Some (C, L)).
  { unfold schal in Ex. change (expandChallengeHash E P fuel (g_challengeHash s) = Ok (C, L)) in Ex.
    rewrite (challenge_eq E P sp HP3 CF HE) in Ex by exact S2.
    destruct (challenge E sp fuel (g_challengeHash s)) as [r|]; [congruence|discriminate]. }
  assert (HN : sp_N sp - 1 = 15) by (rewrite (sp_N_eq P sp HP3 CF); reflexivity).
  assert (Hun : forall t, In t C -> unopened C L t = party C L t) by (intros t Ht; apply (unopened_eq P); auto).
  unfold key_from_signature. rewrite <- (cf_H P sp CF), Hb.
  rewrite (read_app (digestSizeBytes P)) by exact S2. rewrite (read_app 32) by (rewrite S1; apply (cf_salt P sp CF)).
  rewrite Hch. change (g_challengeC s) with C in Hk. change (g_challengeP s) with L in Hk. rewrite Hk.
  destruct (find _ C) as [t|] eqn:Hf.
  - left. f_equal. apply find_some in Hf. destruct Hf as [Hin Hne]. rewrite HN in Hne. rewrite (Hun t Hin) in Hne.
    destruct (digest_covers p P HP H3) as [D1 D2].
    apply (unmasked_key_eq E P sp HP3 CF HE HX _ _ _ msg L1 (proj2 W1) L2 L3 Hpad C L Hw D1 D2 t Hin).
    lia.
  - right. exists C, L. split.
    + rewrite <- app_assoc, firstn_app, S2, Nat.sub_diag, firstn_O, app_nil_r, firstn_all2 by (rewrite S2; auto). exact Hch.
    + intros t Ht. pose proof (find_none _ _ Hf t Ht) as Hn. cbv beta in Hn. lia.
Qed.
