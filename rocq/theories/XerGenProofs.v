(** The generated XER encoders write the tree of the value. *)
From Verif Require Import Base Bits ByteStream UperTypes XerSpec Xer XerProofs XerProofs3 XerProofs4 XerProofs5 XerGen XerGenSpec.
From Coq Require Import ZifyBool ZifyNat.
Ltac Zify.zify_post_hook ::= Z.div_mod_to_equations.

Lemma default_ne : forall t, untagged t = false -> (forall n t', t <> XRef n t') -> default_tag t <> [].
Proof. intros [] H R; try discriminate; cbn in *; try destruct numeric; try discriminate. now destruct (R name t). Qed.
Lemma tag_ne : forall t tag, untagged t = false -> (forall n t', t <> XRef n t') -> tag_ok t tag -> or_else (default_tag t) tag <> [].
Proof.
  intros t tag U R T. destruct tag as [[|x n]|]; cbn [or_else].
  - destruct t; cbn in T, U; try congruence. now destruct (R name t).
  - discriminate.
  - now apply default_ne.
Qed.
Lemma text_line : forall lvl n l w, line lvl (text_element n l) w = render (match l with [] => NEmpty lvl n | _ => NText lvl n l end) w.
Proof. intros lvl n [|x l] w; reflexivity. Qed.
Lemma wrapped_line : forall lvl n m d w, wrapped lvl n m d ->
  line lvl (match n with [] => empty_tag m | _ => element n (empty_tag m) end) w = render d w.
Proof. intros lvl [|x n] m d w ->; reflexivity. Qed.
Lemma enum_name_in : forall items z m, NoDup (map fst items) -> In (z, m) items -> enum_name items z = Some m.
Proof.
  induction items as [|[v n] items IH]; intros z m D H; [destruct H|]. inversion D as [|? ? N D']; subst. cbn [enum_name]. destruct H as [H|H].
  - injection H as -> ->. now rewrite Z.eqb_refl.
  - destruct (z =? v) eqn:E; [|now apply IH]. exfalso. apply N. apply Z.eqb_eq in E. subst. cbn [fst]. apply (in_map fst _ _ H).
Qed.
Lemma oid_text_unique : forall l t t', oid_text l t -> oid_text l t' -> t = t'.
Proof.
  intros l t t' (ts & H & ->) (ts' & H' & ->). f_equal. revert ts' H'. induction H; intros ts' H'; inversion H'; subst; [reflexivity|].
  f_equal; [eapply numeral_unique; eassumption|auto].
Qed.
Lemma count_sized : forall min max n, sized min max n -> count_of min max n = n.
Proof. intros min max n H. unfold count_of, sized in *. destruct (min =? max) eqn:E; lia. Qed.
Lemma emits_items : forall (enc : value -> B (option unit)) l ds, Forall2 (fun v d => emits (enc v) tt (render d)) l ds ->
  emits (put_items enc (length l) l) tt (fun w => flat_map (fun d => render d w) ds).
Proof.
  intros enc l ds H. induction H as [|v d l ds H F IH]; [apply emits_ret|]. cbn [length put_items flat_map]. eapply emits_bind; eassumption.
Qed.
Lemma Forall2_with : forall A C (P : A -> Prop) (R S : A -> C -> Prop) l l', Forall P l -> Forall2 R l l' ->
  (forall a c, P a -> R a c -> S a c) -> Forall2 S l l'.
Proof. intros A C P R S l l' F H K. induction H; inversion F; subst; constructor; auto. Qed.
Lemma emits_tree : forall lvl n ds body, 0 <= lvl -> n <> [] ->
  emits body tt (fun w => flat_map (fun d => render d w) ds) ->
  emits (do? _ := Xer_EncodeComplexElementStart n [] lvl in do? _ := body in Xer_EncodeComplexElementEnd n lvl) tt
    (render (NTree lvl n ds)).
Proof.
  intros lvl n ds body H N E. eapply emits_ext; [|eapply emits_bind; [apply (emits_start n lvl N)|eapply emits_bind; [exact E|apply (emits_end n lvl N)]]].
  intros w. cbv beta. cbn [render]. now rewrite !line_eq by exact H.
Qed.

Definition enc_ok (t : xty) : Prop := forall lvl tag v d, 0 <= lvl -> tag_ok t tag -> sendable t -> fits t v -> xml t lvl tag v d ->
  emits (xenc t lvl tag v) tt (render d).
Definition enc_fields_ok (fs : xfields) : Prop := forall lvl l ds, 0 <= lvl -> sendable_fields fs -> fits_fields fs l -> xml_fields fs lvl l ds ->
  emits (xenc_fields fs lvl l) tt (fun w => flat_map (fun d => render d w) ds).
Definition enc_alts_ok (cs : xalts) : Prop := forall lvl i v d, 0 <= lvl -> sendable_alts cs -> fits_alt cs i v -> xml_alt cs lvl i v d ->
  emits (xenc_alt cs lvl i v) tt (render d).

Lemma xenc_spec : (forall t, enc_ok t) /\ (forall fs, enc_fields_ok fs) /\ (forall cs, enc_alts_ok cs).
Proof.
  apply xty_mutind.
  - intros u chk lvl tag v d H T SD FT X. destruct v; try contradiction. destruct X as (txt & NM & ->). destruct FT as (R & _). cbn [xenc].
    destruct u.
    + destruct (emits_pos_integer (or_else n_INTEGER tag) z lvl H R) as (t & NT' & E). rewrite (numeral_unique _ _ _ NM NT'). exact E.
    + destruct (emits_integer (or_else n_INTEGER tag) z lvl H R) as (t & NT' & E). rewrite (numeral_unique _ _ _ NM NT'). exact E.
  - intros lvl tag v d H T SD FT X. destruct v; try contradiction. cbn [xenc xml] in *.
    eapply emits_ext; [|apply emits_boolean; exact H]. intros w. now apply wrapped_line.
  - intros lvl tag v d H T SD FT X. destruct v; try contradiction. cbn [xenc xml] in *. subst d. apply (emits_null _ lvl H).
  - intros nm max size lvl tag v d H T SD FT X. destruct v; try contradiction. cbn [xenc xml] in *. subst d.
    eapply emits_ext; [|apply emits_text; exact H]. intros w. apply text_line.
  - intros items lvl tag v d H T (D & O) FT X. destruct v; try contradiction. cbn [xenc xml] in *. destruct X as (m & I' & X).
    rewrite (enum_name_in _ _ _ D I'). eapply emits_ext; [|apply emits_enumerated; [exact H|]]; [intros w; now apply wrapped_line|].
    rewrite Forall_forall in O. destruct (O m (in_map snd _ _ I')) as (_ & O' & _). lia.
  - intros min max lvl tag v d H T SD FT X. destruct v; try contradiction. cbn [xenc xml fits] in *. subst d. destruct FT as (Z1 & F).
    unfold len_of in Z1. rewrite (count_sized _ _ _ Z1). rewrite <- (app_nil_r l) at 1.
    apply emits_octets; [|exact F]. apply (tag_ne (XOct min max)); [reflexivity|discriminate|exact T].
  - intros min max lvl tag v d H T SD FT X. destruct v; try contradiction. cbn [xenc xml fits] in *. subst d.
    rewrite (count_sized _ _ _ FT). rewrite <- (app_nil_r (pack l)).
    apply emits_bits. apply (tag_ne (XBit min max)); [reflexivity|discriminate|exact T].
  - intros lvl tag v d H T SD FT X. destruct v; try contradiction. cbn [xenc xml fits] in *. destruct X as (txt & OT & ->). destruct FT as (_ & F).
    destruct (emits_oid (or_else n_ObjectIdentifier tag) l [] lvl) as (t & OT' & E).
    + apply (tag_ne XOid); [reflexivity|discriminate|exact T].
    + exact F.
    + rewrite app_nil_r in E. rewrite (oid_text_unique _ _ _ OT OT'). exact E.
  - intros min max child t IH lvl tag v d H T SD FT X. destruct v; try contradiction. cbn [xenc xml fits sendable] in *. destruct X as (ds & X & ->).
    destruct FT as (Z1 & F). destruct SD as (T1 & SD). rewrite (count_sized _ _ _ Z1). rewrite Nat2Z.id. apply emits_tree; [exact H| |].
    + apply (tag_ne (XSeqOf min max child t)); [reflexivity|discriminate|exact T].
    + apply emits_items. eapply Forall2_with; [exact F|exact X|]. intros a c FA XA. cbv beta. apply IH; [lia|assumption..].
  - intros fs IH lvl tag v d H T SD FT X. destruct v; try contradiction. cbn [xenc xml fits sendable] in *. destruct X as (ds & X & ->).
    apply emits_tree; [exact H| |apply IH; [lia|assumption..]]. apply (tag_ne (XSeq fs)); [reflexivity|discriminate|exact T].
  - intros cs IH lvl tag v d H T SD FT X. destruct v as [| | | | | | | | | | |i v|]; try contradiction. cbn [xenc xml fits sendable] in *.
    destruct tag as [[|x n]|].
    + eapply emits_ext; [|eapply emits_bind; [apply emits_ret|eapply emits_bind; [apply (IH (lvl + 1) i v d); [lia|assumption..]|apply emits_ret]]].
      intros w. cbn [app]. apply app_nil_r.
    + destruct X as (d' & X & ->). apply emits_tree; [exact H|discriminate|]. eapply emits_ext; [|apply (IH (lvl + 1) i v d'); [lia|assumption..]].
      intros w. cbn [flat_map]. now rewrite app_nil_r.
    + apply IH; [lia|assumption..].
  - intros name t IH lvl tag v d H T SD FT X. cbn [xenc xml fits sendable tag_ok] in *. apply IH; [lia|assumption..].
  - intros lvl l ds H SD FT X. destruct l; [|contradiction]. cbn [xml_fields] in X. subst. apply emits_ret.
  - intros name o t IHt fs IH lvl l ds H (N & T & S1 & S2) FT X. destruct l as [|[[|] c] l]; [contradiction| |].
    + destruct c as [v|]; [|contradiction]. cbn [xml_fields xenc_fields] in *. destruct X as (d & ds' & X & X' & ->).
      replace (match o with Mandatory => true | _ => true end) with true by (destruct o; reflexivity).
      assert (F : fits t v /\ fits_fields fs l) by (cbn [fits_fields] in FT; destruct o; exact FT). destruct F as (F1 & F2).
      cbn [flat_map]. eapply emits_bind; [apply IHt; assumption|]. apply IH; assumption.
    + cbn [xml_fields xenc_fields] in *. destruct X as (O & X).
      replace (match o with Mandatory => true | _ => false end) with false by (destruct o; congruence).
      assert (F2 : fits_fields fs l) by (cbn [fits_fields] in FT; destruct o; try apply FT; contradiction).
      eapply emits_ext; [|eapply emits_bind; [apply emits_ret|apply (IH lvl l ds); assumption]]. reflexivity.
  - intros lvl i v d H SD FT X. contradiction.
  - intros name t IHt cs IH lvl i v d H (N & T & S1 & S2) FT X. destruct i as [|i]; cbn [xenc_alt xml_alt fits_alt] in *.
    + apply IHt; assumption.
    + apply IH; assumption.
Qed.
