From Verif Require Import Base Bits BitStream Contracts UperTypes UperSpec UperWf UperClasses Uper EnumNum EnumNumSpec EnumNumProofs.
From Verif Require Properties4Proofs.
From Coq Require Import Sorted ZifyBool ZifyNat.

Lemma free_nil : forall k v, is_free [] k v -> v = Z.of_nat k.
Proof.
  intros k v (H & _ & L). cbn [existsb negb] in L. unfold below in L.
  assert (E : forall l : list Z, filter (fun _ => true) l = l) by (induction l as [|x l IH]; cbn [filter]; congruence).
  rewrite E, map_length, seq_length in L. lia.
Qed.
Lemma plain_from : forall items k out, given items = [] -> numbered [] k items (pairs out) ->
  map definitionValue out = map Z.of_nat (seq k (length out)).
Proof.
  unfold pairs, given. induction items as [|[n [v|]] items IH]; intros k out G N; destruct out as [|y out]; cbn [map numbered flat_map snd app length seq] in *;
    try contradiction; try reflexivity; try discriminate.
  destruct N as (_ & F & N). apply free_nil in F. rewrite F. f_equal. apply IH; assumption.
Qed.
Lemma plain : forall ev acn items out, NoDup (map fst items) -> given items = [] -> enum_items ev acn items = Some out ->
  map definitionValue out = map Z.of_nat (seq 0 (length out)).
Proof.
  intros ev acn items out ND G H. destruct (values ev acn items ND) as (o & H' & N & _); [rewrite G; constructor|].
  assert (o = out) by congruence. subst o. rewrite G in N. eapply plain_from; eauto.
Qed.
Lemma wire : forall c ev acn items out threshold, NoDup (map fst items) -> NoDup (given items) -> items <> [] ->
  Z.of_nat (length items) < 2 ^ 31 -> enum_items ev acn items = Some out ->
  threshold <= Z.of_nat (length out) \/ given items = [] ->
  forall y, In y out -> let t := TEnum (fst (enum_table threshold out)) (snd (enum_table threshold out)) in
    writes (enc c t true (VEnum (definitionValue y))) true (ubits true t (VEnum (definitionValue y))) /\
    reads (dec c t true) (Some (VEnum (definitionValue y))) (ubits true t (VEnum (definitionValue y))).
Proof.
  intros c ev acn items out th ND NG NE LL H O y I t.
  assert (W : wft t) by (eapply table; eauto).
  assert (C : conform t).
  { unfold t. cbn [conform]. destruct O as [O|O].
    - right. unfold enum_table. cbn [snd]. rewrite (proj2 (Z.leb_le _ _) O). discriminate.
    - left. unfold enum_table. cbn [fst]. rewrite (plain ev acn items out ND O H).
      generalize 0%nat. generalize (length out). intros n. induction n as [|n IH]; intros k; cbn [seq map]; constructor; [apply IH|].
      rewrite Forall_forall. intros x Hx. apply in_map_iff in Hx. destruct Hx as (j & <- & Hj). apply in_seq in Hj. lia. }
  assert (V : valid t (VEnum (definitionValue y))) by (cbn [t valid]; unfold enum_table; cbn [fst]; apply in_map; exact I).
  assert (S : sides c t (VEnum (definitionValue y))) by constructor.
  split.
  - apply Properties4Proofs.std_bits; assumption.
  - exact (Properties4Proofs.std_reads c t _ W C V S).
Qed.
