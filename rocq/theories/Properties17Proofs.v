From Verif Require Import Base Bits BitsProofs Contracts Parse ParseProofs UperTypes UperSpec Uper UperWf UperProofs3 UperProofs8 UperCanon UperCanonProofs.
From Coq Require Import ZifyBool ZifyNat.
Ltac Zify.zify_post_hook ::= Z.div_mod_to_equations.

Lemma taken_at : forall s s' pre bs rest, at_ s pre (bs ++ rest) -> pos s' = pos s + Z.of_nat (length bs) -> taken s s' = bs.
Proof.
  intros s s' pre bs rest (H1 & H2 & H3 & H4) HP. unfold taken. rewrite H2, HP.
  replace (Z.to_nat (pos s)) with (length pre) by lia. replace (Z.to_nat _) with (length bs) by lia.
  rewrite skipn_app, skipn_all, Nat.sub_diag. cbn [skipn app]. rewrite firstn_app, firstn_all, Nat.sub_diag. cbn [firstn]. apply app_nil_r.
Qed.
Lemma only : forall c t, ovf_wrap c = true -> wft t -> canonical t = true -> forall s v s', wfp s -> dec c t true s = Ok (Some v, s') ->
  valid t v /\ settled t v /\ taken s s' = ubits false t v.
Proof.
  intros c t Hc Hw Hk s v s' HW E.
  destruct (canon_uper c Hc t Hw Hk s v s' HW E) as (pre & bs & rest & X1 & X2 & X3 & (X4 & X5 & X6) & X7).
  rewrite (taken_at _ _ _ _ _ X1 X7). auto.
Qed.
Lemma canon_sides : forall c, ovf_wrap c = true ->
  (forall t, canonical t = true -> forall v, sides c t v) /\
  (forall fs, canonical_fields fs = true -> forall l, Forall (side c) (leaves_fields fs l)) /\
  (forall cs, canonical_alts cs = true -> forall i v, Forall (side c) (leaves_alt cs i v)).
Proof.
  intros c Hc. unfold sides. apply ty_mutind; cbn [canonical canonical_fields canonical_alts]; try (intros; destruct v; constructor; fail).
  - intros i p w Hk v. destruct i as [[a b| | |]| |]; try discriminate. destruct v; constructor; [|constructor].
    cbn [side range_side]. right. right. right. exact Hc.
  - discriminate.
  - intros t IH min max Hk v. apply andb_prop in Hk. destruct v; try (constructor; fail).
    cbn [leaves]. induction l; cbn [flat_map]; [constructor|]. apply Forall_app. split; [apply IH; tauto|auto].
  - intros fs IH Hk v. destruct v; try (constructor; fail). cbn [leaves]. auto.
  - intros cs IH Hk v. destruct v; try (constructor; fail). cbn [leaves]. auto.
  - intros ok t IH Hk v. destruct v; cbn [leaves]; auto.
  - discriminate.
  - intros _ l. constructor.
  - intros o t IHt fs IHf Hk l. apply andb_prop in Hk. destruct Hk as [Hk Hk2]. apply andb_prop in Hk.
    destruct l as [|[e v] l]; cbn [leaves_fields]; [constructor|]. apply Forall_app. split; [|auto].
    destruct e; [|constructor]. destruct v; [apply IHt; tauto|constructor].
  - intros t IHt cs IHc Hk [|i] v; apply andb_prop in Hk; cbn [leaves_alt]; [apply IHt|apply IHc]; tauto.
Qed.
Lemma reencode : forall c t, ovf_wrap c = true -> wft t -> canonical t = true -> forall s v s', wfp s -> dec c t true s = Ok (Some v, s') ->
  writes (enc c t true v) true (taken s s').
Proof.
  intros c t Hc Hw Hk s v s' HW E. destruct (only c t Hc Hw Hk s v s' HW E) as (V & _ & ->).
  apply writes_uper; auto. now apply canon_sides.
Qed.
Lemma one_form : forall c t, ovf_wrap c = true -> wft t -> canonical t = true -> forall s1 s2 v s1' s2', wfp s1 -> wfp s2 ->
  dec c t true s1 = Ok (Some v, s1') -> dec c t true s2 = Ok (Some v, s2') -> taken s1 s1' = taken s2 s2'.
Proof.
  intros c t Hc Hw Hk s1 s2 v s1' s2' W1 W2 E1 E2.
  destruct (only c t Hc Hw Hk _ _ _ W1 E1) as (_ & _ & ->). destruct (only c t Hc Hw Hk _ _ _ W2 E2) as (_ & _ & ->). reflexivity.
Qed.
Lemma accepted_iff : forall c t, ovf_wrap c = true -> wft t -> canonical t = true -> forall s v, wfp s ->
  (exists s', dec c t true s = Ok (Some v, s')) <->
  (valid t v /\ settled t v /\ exists rest, bits_of_bytes (buf s) = firstn (Z.to_nat (pos s)) (bits_of_bytes (buf s)) ++ ubits false t v ++ rest /\
     pos s + Z.of_nat (length (ubits false t v)) <= 8 * count s).
Proof.
  intros c t Hc Hw Hk s v HW. split.
  - intros [s' E]. destruct (canon_uper c Hc t Hw Hk s v s' HW E) as (pre & bs & rest & X1 & X2 & X3 & (X4 & X5 & X6) & X7).
    splits; auto. subst bs. destruct X1 as (A1 & A2 & A3 & A4). exists rest. split; [|lia].
    rewrite A2. replace (Z.to_nat (pos s)) with (length pre) by lia. rewrite firstn_app, firstn_all, Nat.sub_diag. cbn [firstn].
    now rewrite app_nil_r.
  - intros (V1 & V2 & rest & HB & HL). destruct HW as (W1 & (W2 & W3 & W4) & W5).
    assert (0 <= pos s) by (unfold pos; lia).
    assert (HP : Z.of_nat (length (firstn (Z.to_nat (pos s)) (bits_of_bytes (buf s)))) = pos s)
      by (rewrite firstn_length, len_bits_of_bytes; lia).
    destruct (reads_uper c t v Hw V1 (proj1 (canon_sides c Hc) t Hk v) s (firstn (Z.to_nat (pos s)) (bits_of_bytes (buf s))) rest) as (s' & E & _).
    + unfold at_. splits; auto; lia.
    + rewrite Nat2Z.inj_add, HP. lia.
    + exists s'. rewrite E. now rewrite (proj1 settled_ok t v V1 V2).
Qed.
