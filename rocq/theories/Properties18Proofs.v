From Verif Require Import Base Bits BitStream BitsProofs Contracts Parse ParseProofs UperTypes UperSpec Uper UperWf UperProofs3 UperProofs8 UperCanon UperCanonProofs
  AcnReal AcnSpec AcnGen AcnGenSpec AcnGenProofs1 AcnGenProofs4 AcnGenShape AcnGenProofs7 AcnCanon AcnCanonProofs AcnCanonProofs2 AcnCanonProofs3 Properties17Proofs.
From Verif Require Properties12Proofs.
From Coq Require Import ZifyBool ZifyNat.
Ltac Zify.zify_post_hook ::= Z.div_mod_to_equations.
Local Open Scope Z_scope.

Definition no_scope : scope := fun _ => None.
Lemma no_scope_ok : env_ok no_scope [].
Proof. intros d k H. discriminate. Qed.
Lemma items_mono : forall {A} (P Q : A -> Z -> list bool -> Prop) l, Forall (fun a => forall p bs, P a p bs -> Q a p bs) l ->
  forall p bss, items_encode P l p bss -> items_encode Q l p bss.
Proof. intros A P Q l H. induction H; intros p [|b bss]; cbn [items_encode]; auto. intros [H1 H2]. auto. Qed.
Lemma plain_served : forall t v, plain v \/ v = VNull -> served t v.
Proof. fix IH 1. intros t v H. destruct t; destruct v; cbn [served]; auto; destruct H as [H|H]; try contradiction; try discriminate; apply IH; auto. Qed.
Lemma served_enc : forall c,
  (forall t e v p bs, encodes c false t e v p bs -> served t v -> encodes c true t e v p bs) /\
  (forall fs e l p bs, encodes_fields c false fs e l p bs -> served_fields fs l -> encodes_fields c true fs e l p bs) /\
  (forall cs e i v p bs, encodes_alt c false cs e i v p bs -> served_alt cs i v -> encodes_alt c true cs e i v p bs).
Proof.
  intros c. apply aty_mutind; try (intros; destruct v; assumption).
  - intros t IH sz min max e v p bs. destruct v; try contradiction. cbn [encodes served]. intros (lead & bss & trail & H1 & H2 & H3 & H4) HS.
    exists lead, bss, trail. splits; auto. revert H3. apply items_mono. rewrite Forall_forall in *. intros x Hx q b H. apply IH; auto.
  - intros fs IH e v p bs. destruct v; try contradiction. cbn [encodes served]. intros (b2 & H1 & H2) HS. exists b2. auto.
  - intros k cs IH e v p bs. destruct v; try contradiction. cbn [encodes served]. intros (b1 & b2 & H1 & H2 & H3) HS. exists b1, b2. auto.
  - intros ok t IH e v p bs. 
    replace (encodes c false (ARef ok t) e v p bs) with (encodes c false t e v p bs /\ ok (anorm t v) = true) by (destruct v; reflexivity).
    replace (encodes c true (ARef ok t) e v p bs) with (encodes c true t e v p bs /\ ok (anorm t v) = true) by (destruct v; reflexivity).
    replace (served (ARef ok t) v) with (served t v) by (destruct v; reflexivity). intros [H1 H2] HS. auto.
  - intros n t IH e v p bs.
    replace (encodes c false (AAlign n t) e v p bs) with (exists b, bs = zeros (Z.to_nat (align n p - p)) ++ b /\ encodes c false t e v (align n p) b) by (destruct v; reflexivity).
    replace (encodes c true (AAlign n t) e v p bs) with (exists b, bs = zeros (Z.to_nat (align n p - p)) ++ b /\ encodes c true t e v (align n p) b) by (destruct v; reflexivity).
    replace (served (AAlign n t) v) with (served t v) by (destruct v; reflexivity). intros (b & H1 & H2) HS. exists b. auto.
  - intros e [|x l] p bs; cbn; auto.
  - intros o t IHt fs IHf e [|[x ov] l] p bs; [contradiction|]. cbn [encodes_fields served_fields]. intros (b1 & b2 & H1 & H2 & H3) [S1 S2]. exists b1, b2. splits; auto.
    destruct o as [| | |k def]; auto; try (destruct x, ov; auto; fail). destruct H2 as [H2 H4]. split; auto. destruct x, ov; auto.
  - intros d t IHt fs IHf e l p bs. cbn [encodes_fields served_fields]. intros (x & b1 & b2 & H1 & H2 & H3 & H4 & _) [S1 S2]. exists x, b1, b2. splits; auto.
    apply IHt; auto. apply plain_served. auto.
  - intros t IHt fs IHf e l p bs. cbn [encodes_fields served_fields]. intros (b1 & b2 & H1 & H2 & H3) HS. exists b1, b2. splits; auto.
    apply IHt; auto. apply plain_served. auto.
  - intros t IHt cs IHc e [|i] v p bs; cbn [encodes_alt served_alt]; auto.
Qed.

Section Wrap.
Variable c : cfg.
Hypothesis Hovf : ovf_wrap c = true.
Hypothesis Hshl : shl_wrap c = true.
Variables (h : bool) (t : aty).
Hypothesis HW : wfa t.
Hypothesis HX : exact no_scope t.
Lemma only_at : forall s v s', wfp s -> adec c h t [] s = Ok (Some v, s') -> whole t v = true ->
  exists pre bs rest, at_ s pre (bs ++ rest) /\ Z.of_nat (length pre + length bs) <= 8 * count s /\ blen pre = pos s /\ taken s s' = bs /\
    encodes c false t [] v (pos s) bs /\ anorm t v = v.
Proof.
  intros s v s' HS E HV. destruct (proj1 (acn_only c Hovf Hshl h) t HW no_scope [] HX no_scope_ok s v s' HS E HV) as (pre & bs & rest & X1 & X2 & X3 & X4 & X5 & [X6 X7]).
  destruct X1 as (A1 & A2 & A3 & A4) eqn:EA. destruct X2 as (B1 & B2 & B3 & B4). destruct X3 as (_ & (C1 & C2 & C3) & _). rewrite app_length in *.
  assert (blen pre = pos s) by (unfold blen; lia).
  exists pre, bs, rest. splits; auto; try lia; [|congruence].
  eapply taken_at; [exact X1|]. lia.
Qed.
Lemma only : forall s v s', wfp s -> adec c h t [] s = Ok (Some v, s') -> whole t v = true ->
  encodes c false t [] v (pos s) (taken s s') /\ anorm t v = v.
Proof. intros s v s' HS E HV. destruct (only_at s v s' HS E HV) as (pre & bs & rest & _ & _ & _ & -> & H1 & H2). auto. Qed.
Lemma reencode : forall s v s', wfp s -> adec c h t [] s = Ok (Some v, s') -> whole t v = true -> served t v ->
  writesAt (pos s) (aenc c h t v) true (taken s s').
Proof. intros s v s' HS E HV SV. destruct (only s v s' HS E HV) as [H _]. eapply Properties12Proofs.encode; eauto. apply served_enc; eauto. Qed.
Lemma one_form : forall s1 s2 v s1' s2', wfp s1 -> wfp s2 -> pos s1 = pos s2 -> adec c h t [] s1 = Ok (Some v, s1') -> adec c h t [] s2 = Ok (Some v, s2') ->
  whole t v = true -> served t v -> taken s1 s1' = taken s2 s2'.
Proof.
  intros s1 s2 v s1' s2' W1 W2 EP E1 E2 HV SV. destruct (only s1 v s1' W1 E1 HV) as [H1 _]. destruct (only s2 v s2' W2 E2 HV) as [H2 _].
  rewrite <- EP in H2. eapply Properties12Proofs.functional; [exact HW| |apply served_enc; eauto|apply served_enc; eauto].
  destruct W1 as (_ & (C1 & C2 & C3) & _). unfold pos. lia.
Qed.
Lemma accepted_iff : forall s v, wfp s ->
  (exists s', adec c h t [] s = Ok (Some v, s') /\ whole t v = true) <->
  (whole t v = true /\ anorm t v = v /\ exists bs rest, encodes c false t [] v (pos s) bs /\
     bits_of_bytes (buf s) = firstn (Z.to_nat (pos s)) (bits_of_bytes (buf s)) ++ bs ++ rest /\ pos s + Z.of_nat (length bs) <= 8 * count s).
Proof.
  intros s v HS. split.
  - intros (s' & E & HV). destruct (only_at s v s' HS E HV) as (pre & bs & rest & (A1 & A2 & A3 & A4) & X2 & X3 & X4 & X5 & X6).
    splits; auto. exists bs, rest. splits; auto; [|lia].
    rewrite A2. replace (Z.to_nat (pos s)) with (length pre) by (unfold blen in X3; lia). rewrite firstn_app, firstn_all, Nat.sub_diag. cbn [firstn].
    now rewrite app_nil_r.
  - intros (V1 & V2 & bs & rest & HE & HB & HL). destruct HS as (W1 & (W2 & W3 & W4) & W5).
    assert (0 <= pos s) by (unfold pos; lia).
    assert (HP : Z.of_nat (length (firstn (Z.to_nat (pos s)) (bits_of_bytes (buf s)))) = pos s)
      by (rewrite firstn_length, len_bits_of_bytes; lia).
    destruct (Properties12Proofs.decode c false h t [] v (pos s) bs HW HE s (firstn (Z.to_nat (pos s)) (bits_of_bytes (buf s))) rest) as (s' & E & _); auto.
    + unfold at_. splits; auto; lia.
    + rewrite Nat2Z.inj_add, HP. lia.
    + exists s'. rewrite E, V2. auto.
Qed.
End Wrap.
