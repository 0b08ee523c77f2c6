(** Proofs for Properties14.v. *)
From Verif Require Import Base Bits BitsProofs Contracts Parse ParseProofs UperTypes AcnGen AcnGenSpec AcnGenProofs1 AcnGenProofs3 AcnGenParse AcnGenProofs8.
From Verif Require Properties12Proofs.
From Coq Require Import ZifyBool ZifyNat.

Lemma prefix_truncated : forall {A} (f : M (option A)) ok a bs s pre rest b s', prefix f ok -> readsAt (blen pre) f (Some a) bs ->
  at_ s pre (bs ++ rest) -> wfp s -> 8 * count s < Z.of_nat (length pre + length bs) -> f s = Ok (Some b, s') -> ~ ok b.
Proof.
  intros A f ok a bs s pre rest b s' HP HR HA HW HC E HO.
  destruct (HP s b s' HW E HO) as (pre2 & bs2 & rest2 & A2 & L2 & R2 & _).
  destruct (at_uniq _ _ _ _ _ HA A2) as [<- EQ].
  set (m := mkbs (buf s) (Z.of_nat (length (buf s))) (curByte s) (curBit s)).
  assert (HM : at_ m pre (bs ++ rest)) by exact HA.
  assert (LB : (length pre + length (bs ++ rest) = 8 * length (buf s))%nat).
  { destruct HA as (_ & A3 & _). apply (f_equal (@length bool)) in A3. rewrite len_bits_of_bytes, app_length in A3. lia. }
  destruct (HR m pre rest eq_refl ltac:(cbn; lia) HM) as (m1 & E1 & (_ & _ & P1 & _) & _).
  { rewrite app_length in LB. cbn [count m]. lia. }
  rewrite EQ in HM, LB.
  destruct (R2 m pre rest2 eq_refl ltac:(cbn; lia) HM) as (m2 & E2 & (_ & _ & P2 & _) & _).
  { rewrite app_length in LB. cbn [count m]. lia. }
  rewrite E1 in E2. injection E2 as -> <-. rewrite !app_length in *. lia.
Qed.
Lemma decoder_prefix : forall c h t e, ovf_wrap c = true -> shl_wrap c = true -> wfa t -> tight t ->
  prefix (adec c h t e) (fun v => clean v = true).
Proof.
  intros c h t e H1 H2 W T. eapply prefix_weaken; [|apply (proj1 (acn_prefix c H1 H2 h)); auto]. intros v Hv. right. exact Hv.
Qed.
Lemma decoder_firm : forall c h t e, ovf_wrap c = true -> shl_wrap c = true -> wfa t -> tight t -> firm t = true ->
  prefix (adec c h t e) (fun _ => True).
Proof.
  intros c h t e H1 H2 W T F. eapply prefix_weaken; [|apply (proj1 (acn_prefix c H1 H2 h)); auto]. intros v _. left. exact F.
Qed.
Lemma assignment_prefix : forall c h t ok, ovf_wrap c = true -> shl_wrap c = true -> wfa t -> tight t ->
  prefix (ACN_Decode c h t ok) (fun v => clean v = true).
Proof.
  intros c h t ok H1 H2 W T. unfold ACN_Decode. eapply prefix_map; [apply decoder_prefix; auto|].
  intros v w. cbv beta. destruct (ok v); [|discriminate]. intros [= <-]. auto.
Qed.
Lemma decoder_truncated : forall c st h t e v s pre bs rest w s', ovf_wrap c = true -> shl_wrap c = true -> wfa t -> tight t ->
  encodes c st t e v (blen pre) bs -> at_ s pre (bs ++ rest) -> wfp s -> 8 * count s < Z.of_nat (length pre + length bs) ->
  adec c h t e s = Ok (Some w, s') -> clean w = false.
Proof.
  intros c st h t e v s pre bs rest w s' H1 H2 W T HE HA HW HC E.
  assert (~ clean w = true); [|destruct (clean w); congruence].
  eapply (prefix_truncated _ (fun v => clean v = true)); eauto.
  - apply decoder_prefix; auto.
  - eapply Properties12Proofs.decode; eauto.
Qed.
Lemma decoder_truncated_firm : forall c st h t e v s pre bs rest w s', ovf_wrap c = true -> shl_wrap c = true -> wfa t -> tight t -> firm t = true ->
  encodes c st t e v (blen pre) bs -> at_ s pre (bs ++ rest) -> wfp s -> 8 * count s < Z.of_nat (length pre + length bs) ->
  adec c h t e s <> Ok (Some w, s').
Proof.
  intros c st h t e v s pre bs rest w s' H1 H2 W T F HE HA HW HC E.
  eapply (prefix_truncated _ (fun v => True)); eauto.
  - apply decoder_firm; auto.
  - eapply Properties12Proofs.decode; eauto.
Qed.
