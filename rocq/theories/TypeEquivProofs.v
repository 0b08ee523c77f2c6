(** Equivalent types have the same uPER encodings. *)
From Verif Require Import Base Bits RealSpec UperTypes UperSpec ConSpec Constraints Validate Pipeline TypeEquiv TypeEquivSpec.
From Coq Require Import Lia.

Lemma ety_rect' : forall P : ety -> Prop,
  (forall cs, P (EInt cs)) -> (forall cs, P (EReal cs)) -> (forall n cs, P (EStr n cs)) -> (forall cs, P (EOct cs)) -> (forall cs, P (EBit cs)) ->
  P ENull -> (forall cs, P (EBool cs)) -> (forall i cs, P (EEnum i cs)) -> (forall r, P (EOid r)) -> (forall cs t, P t -> P (ESeqOf cs t)) ->
  (forall l, Forall (fun c => P (snd c)) l -> P (ESeq l)) -> (forall l, Forall P l -> P (EChoice l)) -> (forall t, P t -> P (ERef t)) -> forall t, P t.
Proof.
  intros P H1 H2 H3 H4 H5 H6 H7 H8 H9 H10 H11 H12 H13. fix go 1. intros t; destruct t as [cs|cs|n cs|cs|cs| |cs|i cs|r|cs t|l|l|t].
  1: apply H1. 1: apply H2. 1: apply H3. 1: apply H4. 1: apply H5. 1: apply H6. 1: apply H7. 1: apply H8. 1: apply H9.
  - apply H10, go.
  - apply H11. induction l as [|c l IH]; constructor; [apply go|exact IH].
  - apply H12. induction l as [|c l IH]; constructor; [apply go|exact IH].
  - apply H13, go.
Qed.

Lemma same_refl : forall o, same_codec o o.
Proof. intros [u|]; cbn; auto. Qed.
Lemma same_sym : forall a b, same_codec a b -> same_codec b a.
Proof. intros [a|] [b|] H; cbn in *; auto. intros v. destruct (H v) as [A B]. split; [intros; symmetry; apply A|symmetry; exact B]. Qed.
Lemma same_trans : forall a b c, same_codec a b -> same_codec b c -> same_codec a c.
Proof.
  intros [a|] [b|] [c|] H K; cbn in *; auto; try contradiction. intros v. destruct (H v) as [A B]. destruct (K v) as [C D].
  split; [intros; rewrite A; apply C|congruence].
Qed.
Lemma same_ref : forall g t, same_codec (uper_type g (ERef t)) (uper_type g t).
Proof. intros g t. cbn [uper_type]. destruct (uper_type g t) as [u|]; cbn; auto. Qed.
Lemma same_strip : forall g t, same_codec (uper_type g (strip t)) (uper_type g t).
Proof.
  intros g t. induction t; try apply same_refl. cbn [strip]. eapply same_trans; [exact IHt|]. apply same_sym, same_ref.
Qed.
Lemma same_of : forall g cs t1 t2, same_codec (uper_type g t1) (uper_type g t2) -> same_codec (uper_type g (ESeqOf cs t1)) (uper_type g (ESeqOf cs t2)).
Proof.
  intros g cs t1 t2 H. cbn [uper_type]. destruct (obind (getSizeableUperRange len cs) getSizeMinAndMaxValue) as [[a b]|]; cbn [obind]; [|exact I].
  destruct (uper_type g t1) as [u1|]; destruct (uper_type g t2) as [u2|]; cbn in *; try contradiction; auto.
  intros v. destruct v; try (split; reflexivity). split.
  - intros std. f_equal. apply map_ext. intros x. apply H.
  - f_equal. apply map_ext. intros x. apply H.
Qed.
Definition same_fields (o1 o2 : option fields) : Prop :=
  match o1, o2 with
  | Some f1, Some f2 => forall l, presence_bits f1 l = presence_bits f2 l /\ (forall std, fields_bits std f1 l = fields_bits std f2 l) /\ norm_fields f1 l = norm_fields f2 l
  | None, None => True
  | _, _ => False
  end.
Definition same_alts (o1 o2 : option alts) : Prop :=
  match o1, o2 with
  | Some f1, Some f2 => alts_len f1 = alts_len f2 /\ forall i v, (forall std, alt_bits std f1 i v = alt_bits std f2 i v) /\ norm_alt f1 i v = norm_alt f2 i v
  | None, None => True
  | _, _ => False
  end.
Lemma fields_ok : forall g e l1, (forall a b, eq_opt e a b = true -> a = b) ->
  Forall (fun c => forall t2, uperEquivalence e (snd c) t2 = true -> same_codec (uper_type g (snd c)) (uper_type g t2)) l1 ->
  forall l2, zip_forall (fun c1 c2 => eq_opt e (fst c1) (fst c2) && uperEquivalence e (snd c1) (snd c2)) l1 l2 = true ->
  same_fields (omap_fields (uper_type g) l1) (omap_fields (uper_type g) l2).
Proof.
  intros g e l1 EO IH. induction IH as [|[o1 t1] l1 H IH IHl]; intros [|[o2 t2] l2] Z; try discriminate; [cbn; auto|].
  cbn [zip_forall fst snd] in Z. apply andb_true_iff in Z as [Z ZL]. apply andb_true_iff in Z as [ZO ZT]. apply EO in ZO. subst o2.
  specialize (IHl _ ZL). specialize (H _ ZT). cbn [fst snd] in H.
  change (omap_fields (uper_type g) ((o1, t1) :: l1)) with (obind (uper_type g t1) (fun t => obind (omap_fields (uper_type g) l1) (fun fs => Some (FCons o1 t fs)))).
  change (omap_fields (uper_type g) ((o1, t2) :: l2)) with (obind (uper_type g t2) (fun t => obind (omap_fields (uper_type g) l2) (fun fs => Some (FCons o1 t fs)))).
  destruct (uper_type g t1) as [u1|]; destruct (uper_type g t2) as [u2|]; cbn [same_codec] in H; try contradiction; [|exact I]. cbn [obind].
  destruct (omap_fields (uper_type g) l1) as [f1|]; destruct (omap_fields (uper_type g) l2) as [f2|]; cbn [same_fields] in IHl; try contradiction; [|exact I].
  cbn [obind same_fields]. intros [|[p v] l]; [cbn; auto|]. destruct (IHl l) as (A & B & C). cbn [presence_bits fields_bits norm_fields].
  split; [rewrite A; reflexivity|]. split.
  - intros std. rewrite B. f_equal. destruct p; [|reflexivity]. destruct v as [v|]; [|reflexivity]. apply H.
  - rewrite C. f_equal. destruct p; [|reflexivity]. destruct v as [v|]; [|reflexivity]. destruct (H v) as [_ N]. rewrite N. reflexivity.
Qed.
Lemma alts_ok : forall g e l1, Forall (fun t => forall t2, uperEquivalence e t t2 = true -> same_codec (uper_type g t) (uper_type g t2)) l1 ->
  forall l2, zip_forall (uperEquivalence e) l1 l2 = true -> same_alts (omap_alts (uper_type g) l1) (omap_alts (uper_type g) l2).
Proof.
  intros g e l1 IH. induction IH as [|t1 l1 H IH IHl]; intros [|t2 l2] Z; try discriminate; [cbn; auto|].
  cbn [zip_forall] in Z. apply andb_true_iff in Z as [ZT ZL]. specialize (IHl _ ZL). specialize (H _ ZT).
  change (omap_alts (uper_type g) (t1 :: l1)) with (obind (uper_type g t1) (fun t => obind (omap_alts (uper_type g) l1) (fun fs => Some (ACons t fs)))).
  change (omap_alts (uper_type g) (t2 :: l2)) with (obind (uper_type g t2) (fun t => obind (omap_alts (uper_type g) l2) (fun fs => Some (ACons t fs)))).
  destruct (uper_type g t1) as [u1|]; destruct (uper_type g t2) as [u2|]; cbn [same_codec] in H; try contradiction; [|exact I]. cbn [obind].
  destruct (omap_alts (uper_type g) l1) as [f1|]; destruct (omap_alts (uper_type g) l2) as [f2|]; cbn [same_alts] in IHl; try contradiction; [|exact I].
  cbn [obind same_alts]. destruct IHl as [L K]. split; [cbn [alts_len]; congruence|]. intros [|i] v; cbn [alt_bits norm_alt]; [apply H|apply K].
Qed.
Lemma list_eqb_Z : forall l m, list_eqb Z.eqb l m = true -> l = m.
Proof.
  induction l as [|x l IH]; intros [|y m] H; cbn in H; try discriminate; [reflexivity|]. apply andb_true_iff in H as [A B]. apply Z.eqb_eq in A. f_equal; auto.
Qed.
Lemma equiv_ok : forall e g, sound e -> forall t1 t2, uperEquivalence e t1 t2 = true -> same_codec (uper_type g t1) (uper_type g t2).
Proof.
  intros e g (SI & SS & SO & SB & SE & SF & SP). induction t1 using ety_rect'; intros t2 HE.
  13: { cbn [uperEquivalence] in HE. eapply same_trans; [apply same_ref|]. exact (IHt1 _ HE). }
  all: eapply same_trans; [|apply same_strip]; cbn [uperEquivalence] in HE; destruct (strip t2); try discriminate.
  - apply SI in HE. subst. apply same_refl.
  - apply same_refl.
  - apply andb_true_iff in HE as [A B]. apply Bool.eqb_prop in A. apply SS in B. subst. apply same_refl.
  - apply SO in HE. subst. apply same_refl.
  - apply SB in HE. subst. apply same_refl.
  - apply same_refl.
  - apply same_refl.
  - apply andb_true_iff in HE as [A B]. apply list_eqb_Z in A. apply SE in B. subst. apply same_refl.
  - apply andb_true_iff in HE as [A B]. apply SF in A. subst. apply same_of. exact (IHt1 _ B).
  - match goal with IH : Forall _ l |- _ => pose proof (fields_ok g e l SP IH _ HE) as F end. cbn [uper_type].
    destruct (omap_fields (uper_type g) l) as [f1|]; destruct (omap_fields (uper_type g) l0) as [f2|]; cbn [same_fields] in F; try contradiction; [|exact I].
    cbn [obind same_codec]. intros v. destruct v; try (split; reflexivity). destruct (F l1) as (A & B & C). cbn [ubits norm]. split; [intros std; rewrite A, B; reflexivity|congruence].
  - match goal with IH : Forall _ l |- _ => pose proof (alts_ok g e l IH _ HE) as F end. cbn [uper_type].
    destruct (omap_alts (uper_type g) l) as [f1|]; destruct (omap_alts (uper_type g) l0) as [f2|]; cbn [same_alts] in F; try contradiction; [|exact I].
    cbn [obind same_codec]. destruct F as [L K]. intros v. destruct v; try (split; reflexivity). destruct (K i v) as [A B]. cbn [ubits norm].
    split; [intros std; rewrite L, A; reflexivity|congruence].
Qed.

(** * References *)
Lemma list_eqb_refl : forall l, list_eqb Z.eqb l l = true.
Proof. induction l as [|x l IH]; cbn; [reflexivity|]. now rewrite Z.eqb_refl. Qed.
Lemma zip_refl : forall A (f : A -> A -> bool) l, (forall x, In x l -> f x x = true) -> zip_forall f l l = true.
Proof.
  intros A f. induction l as [|x l IH]; intros H; [reflexivity|]. cbn [zip_forall]. rewrite (H x (or_introl eq_refl)). apply IH. intros; apply H; now right.
Qed.
Lemma equiv_ref_r : forall e t1 t2, uperEquivalence e t1 (ERef t2) = uperEquivalence e t1 t2.
Proof. intros e. induction t1; intros t2; cbn [uperEquivalence strip]; auto. Qed.
Lemma equiv_refl : forall e, reflexive e -> forall t, no_oid t -> uperEquivalence e t t = true.
Proof.
  intros e (SI & SS & SO & SB & SE & SF & SP). induction t using ety_rect'; intros N; cbn [uperEquivalence strip]; auto.
  - rewrite Bool.eqb_reflx, SS. reflexivity.
  - rewrite list_eqb_refl, SE. reflexivity.
  - inversion N.
  - inversion N; subst. rewrite SF, IHt by assumption. reflexivity.
  - inversion N as [| | | | | | | | |? NL| |]; subst. apply zip_refl. intros [o t] J. cbn [fst snd]. rewrite SP. match goal with IH : Forall _ _ |- _ => rewrite Forall_forall in IH; exact (IH _ J (NL _ _ J)) end.
  - inversion N as [| | | | | | | | | |? NL|]; subst. apply zip_refl. intros t J. match goal with IH : Forall _ _ |- _ => rewrite Forall_forall in IH; exact (IH _ J (NL _ J)) end.
  - rewrite equiv_ref_r. inversion N; subst. auto.
Qed.

(** * What is equivalent *)
Lemma erase_strip : forall t, erase (strip t) = erase t.
Proof. induction t; cbn [strip erase]; auto. Qed.
Lemma strip_shape : forall t u, strip t <> ERef u.
Proof. induction t; intros u; cbn [strip]; try discriminate. apply IHt. Qed.
Lemma fields_exact : forall e l1, sound e -> reflexive e ->
  Forall (fun c => no_oid (snd c) -> forall t2, uperEquivalence e (snd c) t2 = true <-> erase (snd c) = erase t2) l1 ->
  (forall o t, In (o, t) l1 -> no_oid t) -> forall l2,
  zip_forall (fun c1 c2 => eq_opt e (fst c1) (fst c2) && uperEquivalence e (snd c1) (snd c2)) l1 l2 = true <->
  map (fun c => (fst c, erase (snd c))) l1 = map (fun c => (fst c, erase (snd c))) l2.
Proof.
  intros e l1 (_ & _ & _ & _ & _ & _ & SP) (_ & _ & _ & _ & _ & _ & RP) IH. induction IH as [|[o1 t1] l1 H IH IHl]; intros N [|[o2 t2] l2]; cbn [zip_forall map fst snd]; try easy.
  cbn [snd] in H. specialize (H (N _ _ (or_introl eq_refl)) t2). assert (N' : forall o t, In (o, t) l1 -> no_oid t) by (intros; eapply N; right; eassumption). specialize (IHl N' l2). rewrite !andb_true_iff. split.
  - intros [[A B] C]. apply SP in A. apply H in B. apply IHl in C. congruence.
  - intros E. injection E as -> B C. split; [split; [apply RP|now apply H]|now apply IHl].
Qed.
Lemma alts_exact : forall e l1, Forall (fun t => no_oid t -> forall t2, uperEquivalence e t t2 = true <-> erase t = erase t2) l1 ->
  (forall t, In t l1 -> no_oid t) -> forall l2, zip_forall (uperEquivalence e) l1 l2 = true <-> map erase l1 = map erase l2.
Proof.
  intros e l1 IH. induction IH as [|t1 l1 H IH IHl]; intros N [|t2 l2]; cbn [zip_forall map]; try easy.
  specialize (H (N _ (or_introl eq_refl)) t2). assert (N' : forall t, In t l1 -> no_oid t) by (intros; apply N; now right). specialize (IHl N' l2). rewrite andb_true_iff. split.
  - intros [B C]. apply H in B. apply IHl in C. congruence.
  - intros E. injection E as B C. split; [now apply H|now apply IHl].
Qed.
Lemma equiv_exact : forall e, sound e -> reflexive e -> forall t1, no_oid t1 -> forall t2, uperEquivalence e t1 t2 = true <-> erase t1 = erase t2.
Proof.
  intros e S R. pose proof S as (SI & SS & SO & SB & SE & SF & SP). pose proof R as (RI & RS & RO & RB & RE & RF & RP).
  induction t1 using ety_rect'; intros N t2.
  13: { inversion N; subst. cbn [uperEquivalence erase]. apply IHt1; assumption. }
  all: rewrite <- (erase_strip t2); pose proof (strip_shape t2) as NS; cbn [uperEquivalence]; destruct (strip t2) as [cs2|cs2|n2 cs2|cs2|cs2| |cs2|i2 cs2|r2|cs2 u2|l2|l2|u2];
    try (exfalso; exact (NS _ eq_refl)); cbn [erase]; try easy.
  - split; [intros H; f_equal; auto|intros E; injection E as ->; apply RI].
  - rewrite andb_true_iff. split; [intros [A B]; apply Bool.eqb_prop in A; apply SS in B; congruence|intros E; injection E as -> ->; split; [apply Bool.eqb_reflx|apply RS]].
  - split; [intros H; f_equal; auto|intros E; injection E as ->; apply RO].
  - split; [intros H; f_equal; auto|intros E; injection E as ->; apply RB].
  - rewrite andb_true_iff. split; [intros [A B]; apply list_eqb_Z in A; apply SE in B; congruence|intros E; injection E as -> ->; split; [apply list_eqb_refl|apply RE]].
  - inversion N; subst. rewrite andb_true_iff, IHt1 by assumption. split; [intros [A B]; apply SF in A; congruence|intros E; injection E as -> B; split; [apply RF|exact B]].
  - inversion N as [| | | | | | | | |? NL| |]; subst. match goal with IH : Forall _ l |- _ => rewrite (fields_exact e l S R IH NL l2) end. split; [intros ->; reflexivity|intros E; now injection E].
  - inversion N as [| | | | | | | | | |? NL|]; subst. match goal with IH : Forall _ l |- _ => rewrite (alts_exact e l IH NL l2) end. split; [intros ->; reflexivity|intros E; now injection E].
Qed.
Lemma zip_in : forall A (f : A -> A -> bool) l m, zip_forall f l m = true -> forall x, In x l -> exists y, f x y = true.
Proof.
  intros A f. induction l as [|x l IH]; intros [|y m] H z J; try contradiction; try discriminate. cbn [zip_forall] in H. apply andb_true_iff in H as [B C].
  destruct J as [->|J]; [now exists y|eapply IH; eassumption].
Qed.
Lemma equiv_no_oid : forall e t1 t2, uperEquivalence e t1 t2 = true -> no_oid t1.
Proof.
  intros e. induction t1 using ety_rect'; intros t2 HE; try (constructor; fail).
  - cbn [uperEquivalence] in HE. destruct (strip t2); discriminate HE.
  - cbn [uperEquivalence] in HE. destruct (strip t2); try discriminate HE. apply andb_true_iff in HE as [_ HE]. constructor. eapply IHt1; eassumption.
  - cbn [uperEquivalence] in HE. destruct (strip t2); try discriminate HE. constructor. intros o t J. destruct (zip_in _ _ _ _ HE _ J) as [y K]. apply andb_true_iff in K as [_ K].
    match goal with IH : Forall _ l |- _ => rewrite Forall_forall in IH; exact (IH _ J _ K) end.
  - cbn [uperEquivalence] in HE. destruct (strip t2); try discriminate HE. constructor. intros t J. destruct (zip_in _ _ _ _ HE _ J) as [y K].
    match goal with IH : Forall _ l |- _ => rewrite Forall_forall in IH; exact (IH _ J _ K) end.
  - constructor. eapply IHt1. exact HE.
Qed.
Lemma equiv_iff : forall e, sound e -> reflexive e -> forall t1 t2, uperEquivalence e t1 t2 = true <-> no_oid t1 /\ erase t1 = erase t2.
Proof.
  intros e S R t1 t2. split; [|intros [N E]; now apply equiv_exact]. intros H. pose proof (equiv_no_oid _ _ _ H) as N. split; [exact N|]. now apply (equiv_exact e S R).
Qed.
