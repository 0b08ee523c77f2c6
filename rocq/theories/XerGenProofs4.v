(** Documents: existence, uniqueness, layout of what is written, length. *)
From Verif Require Import Base Bits ByteStream UperTypes XerSpec Xer XerProofs XerProofs2 XerProofs3 XerProofs4 XerProofs5 XerGen XerGenSpec XerGenProofs XerGenProofs2 XerGenProofs3.
From Coq Require Import ZifyBool ZifyNat.
Ltac Zify.zify_post_hook ::= Z.div_mod_to_equations.

Lemma white_indent : forall w level, Forall white (indent w level).
Proof. intros w level. unfold indent. destruct (w && _); [|constructor]. apply Forall_forall. intros c H. apply repeat_spec in H. subst. now left. Qed.
Lemma white_newline : forall w, Forall white (newline w).
Proof. intros []; [constructor; [right; lia|constructor]|constructor]. Qed.
Lemma layout_white : forall d txt w, layout d txt -> Forall white w -> layout d (w ++ txt).
Proof.
  intros d txt w H W. inversion H; subst; rewrite app_assoc; constructor; try assumption; apply Forall_app; split; assumption.
Qed.
Lemma render_layout : forall w d, exists txt, layout d txt /\ render d w = txt ++ newline w.
Proof.
  intros w. fix IH 1. intros [lvl n|lvl n t|lvl n m|lvl n ns]; cbn [render]; unfold line.
  - exists (indent w lvl ++ empty_tag n). split; [constructor; apply white_indent|now rewrite <- app_assoc].
  - exists (indent w lvl ++ element n t). split; [constructor; apply white_indent|now rewrite <- app_assoc].
  - exists (indent w lvl ++ open_tag n ++ [] ++ empty_tag m ++ [] ++ close_tag n).
    split; [constructor; [apply white_indent|constructor|constructor]|]. unfold element. cbn [app]. now rewrite <- !app_assoc.
  - assert (K : exists ts, layouts ns ts /\ newline w ++ flat_map (fun d => render d w) ns = ts ++ newline w).
    { induction ns as [|d ns IHn]; [exists []; split; [constructor|cbn [flat_map]; now rewrite app_nil_r]|].
      destruct (IH d) as (t & LY & E). destruct IHn as (ts & LS & E'). exists ((newline w ++ t) ++ ts). split.
      - constructor; [|exact LS]. apply layout_white; [exact LY|apply white_newline].
      - cbn [flat_map]. rewrite E. rewrite <- !app_assoc. now rewrite E'. }
    destruct K as (ts & LS & E).
    exists (indent w lvl ++ open_tag n ++ ts ++ (newline w ++ indent w lvl) ++ close_tag n). split.
    + constructor; [apply white_indent|apply Forall_app; split; [apply white_newline|apply white_indent]|exact LS].
    + rewrite <- !app_assoc. do 2 f_equal. rewrite (app_assoc (newline w)). rewrite E. now rewrite <- !app_assoc.
Qed.

Lemma oid_exists : forall l, Forall is_u64 l -> exists t, oid_text l t.
Proof.
  intros l F. assert (K : exists ts, Forall2 numeral l ts).
  { induction F as [|z l Z1 F (ts & IH)]; [exists []; constructor|]. exists (UInt2String z :: ts). constructor; [now apply UInt_numeral|exact IH]. }
  destruct K as (ts & K). exists (dotted ts), ts. auto.
Qed.
Lemma xml_exists :
  (forall t lvl tag v, fits t v -> exists d, xml t lvl tag v d) /\
  (forall fs lvl l, fits_fields fs l -> exists ds, xml_fields fs lvl l ds) /\
  (forall cs lvl i v, fits_alt cs i v -> exists d, xml_alt cs lvl i v d).
Proof.
  apply xty_mutind.
  - intros u chk lvl tag v F. destruct v; try contradiction. destruct F as (F & _). cbn [xml].
    destruct u; [exists (NText lvl (or_else (default_tag (XInt true chk)) tag) (UInt2String z)), (UInt2String z)|exists (NText lvl (or_else (default_tag (XInt false chk)) tag) (Int2String z)), (Int2String z)];
      (split; [|reflexivity]); [now apply UInt_numeral|now apply Int_numeral].
  - intros lvl tag v F. destruct v; try contradiction. eexists. reflexivity.
  - intros lvl tag v F. destruct v; try contradiction. eexists. reflexivity.
  - intros nm max size lvl tag v F. destruct v; try contradiction. eexists. reflexivity.
  - intros items lvl tag v F. destruct v; try contradiction. cbn [fits] in F. apply in_map_iff in F. destruct F as ((z' & m) & E & F). cbn in E. subst.
    eexists. exists m. split; [exact F|reflexivity].
  - intros min max lvl tag v F. destruct v; try contradiction. eexists. reflexivity.
  - intros min max lvl tag v F. destruct v; try contradiction. eexists. reflexivity.
  - intros lvl tag v F. destruct v; try contradiction. destruct F as (_ & F). destruct (oid_exists l F) as (t & O). eexists. exists t. split; [exact O|reflexivity].
  - intros min max child t IH lvl tag v F. destruct v; try contradiction. destruct F as (_ & F). cbn [xml].
    assert (K : exists ds, Forall2 (xml t (lvl + 1) child) l ds).
    { induction F as [|v l F1 F (ds & K)]; [exists []; constructor|]. destruct (IH (lvl + 1) child v F1) as (d & X). exists (d :: ds). now constructor. }
    destruct K as (ds & K). eexists. exists ds. split; [exact K|reflexivity].
  - intros fs IH lvl tag v F. destruct v; try contradiction. destruct (IH (lvl + 1) l F) as (ds & X). eexists. exists ds. split; [exact X|reflexivity].
  - intros cs IH lvl tag v F. destruct v as [| | | | | | | | | | |i v|]; try contradiction. destruct (IH (lvl + 1) i v F) as (d & X). cbn [xml].
    destruct tag as [[|x n]|]; [now exists d| |now exists d]. eexists. exists d. split; [exact X|reflexivity].
  - intros name t IH lvl tag v F. apply IH. exact F.
  - intros lvl l F. destruct l; [|contradiction]. now exists [].
  - intros name o t IHt fs IH lvl l F. destruct l as [|[[|] c] l]; [destruct o; contradiction| |].
    + destruct c as [v|]; [|destruct o; contradiction].
      assert (F' : fits t v /\ fits_fields fs l) by (cbn [fits_fields] in F; destruct o; exact F). destruct F' as (F1 & F2).
      destruct (IHt lvl (Some name) v F1) as (d & X). destruct (IH lvl l F2) as (ds & X'). exists (d :: ds), d, ds. auto.
    + assert (F2 : o <> Mandatory /\ fits_fields fs l) by (cbn [fits_fields] in F; destruct o; try contradiction; (split; [discriminate|apply F])).
      destruct F2 as (O & F2). destruct (IH lvl l F2) as (ds & X'). exists ds. now split.
  - intros lvl i v F. contradiction.
  - intros name t IHt cs IH lvl i v F. destruct i as [|i]; cbn [fits_alt xml_alt] in *; auto.
Qed.
Lemma enum_unique : forall (items : list (Z * list Z)) z m m', NoDup (map fst items) -> In (z, m) items -> In (z, m') items -> m = m'.
Proof.
  intros items z m m' D H H'. apply (enum_name_in _ _ _ D) in H. apply (enum_name_in _ _ _ D) in H'. congruence.
Qed.
Lemma xml_unique :
  (forall t lvl tag v d d', sendable t -> xml t lvl tag v d -> xml t lvl tag v d' -> d = d') /\
  (forall fs lvl l ds ds', sendable_fields fs -> xml_fields fs lvl l ds -> xml_fields fs lvl l ds' -> ds = ds') /\
  (forall cs lvl i v d d', sendable_alts cs -> xml_alt cs lvl i v d -> xml_alt cs lvl i v d' -> d = d').
Proof.
  apply xty_mutind.
  - intros u chk lvl tag v d d' SD X X'. destruct v; try contradiction. destruct X as (t & N & ->), X' as (t' & N' & ->). now rewrite (numeral_unique _ _ _ N N').
  - intros lvl tag v d d' SD X X'. destruct v; try contradiction. cbn in *. unfold wrapped in *. congruence.
  - intros lvl tag v d d' SD X X'. destruct v; try contradiction. cbn in *. congruence.
  - intros nm max size lvl tag v d d' SD X X'. destruct v; try contradiction. cbn [xml] in *. congruence.
  - intros items lvl tag v d d' (D & _) X X'. destruct v; try contradiction. destruct X as (m & N & X), X' as (m' & N' & X'). rewrite (enum_unique _ _ _ _ D N N') in X.
    unfold wrapped in *. congruence.
  - intros min max lvl tag v d d' SD X X'. destruct v; try contradiction. cbn [xml] in *. congruence.
  - intros min max lvl tag v d d' SD X X'. destruct v; try contradiction. cbn [xml] in *. congruence.
  - intros lvl tag v d d' SD X X'. destruct v; try contradiction. destruct X as (t & N & ->), X' as (t' & N' & ->). now rewrite (oid_text_unique _ _ _ N N').
  - intros min max child t IH lvl tag v d d' (_ & SD) X X'. destruct v; try contradiction. destruct X as (ds & X & ->), X' as (ds' & X' & ->). f_equal.
    revert ds' X'. induction X as [|v d l ds X1 X IHX]; intros ds' X'; inversion X'; subst; [reflexivity|]. f_equal; [eapply IH; eassumption|auto].
  - intros fs IH lvl tag v d d' SD X X'. destruct v; try contradiction. destruct X as (ds & X & ->), X' as (ds' & X' & ->). f_equal. eapply IH; eassumption.
  - intros cs IH lvl tag v d d' SD X X'. destruct v as [| | | | | | | | | | |i v|]; try contradiction. cbn [xml sendable] in *. destruct tag as [[|x n]|]; try (eapply IH; eassumption).
    destruct X as (e & X & ->), X' as (e' & X' & ->). do 2 f_equal. eapply IH; eassumption.
  - intros name t IH lvl tag v d d' SD X X'. eapply IH; eassumption.
  - intros lvl l ds ds' SD X X'. destruct l; [|contradiction]. cbn in *. congruence.
  - intros name o t IHt fs IH lvl l ds ds' (_ & _ & S1 & S2) X X'. destruct l as [|[[|] c] l]; [contradiction| |].
    + destruct c as [v|]; [|contradiction]. destruct X as (d & e & X & Y & ->), X' as (d' & e' & X' & Y' & ->). f_equal; [eapply IHt; eassumption|eapply IH; eassumption].
    + destruct X as (_ & X), X' as (_ & X'). eapply IH; eassumption.
  - intros lvl i v d d' SD X. contradiction.
  - intros name t IHt cs IH lvl i v d d' (_ & _ & S1 & S2) X X'. destruct i as [|i]; cbn [xml_alt] in *; [eapply IHt; eassumption|eapply IH; eassumption].
Qed.

(** ** Length *)
Lemma horner_digits : forall k ds, Forall (fun d => 0 <= d <= 9) ds -> (hd 0 ds = 0 -> ds = [0]) -> ds <> [] ->
  horner ds < 10 ^ Z.of_nat k -> (1 <= k)%nat -> (length ds <= k)%nat.
Proof.
  intros k ds F H0 N U K.
  assert (P : forall l a, Forall (fun d => 0 <= d <= 9) l -> 0 <= a -> a * 10 ^ Z.of_nat (length l) <= fold_left (fun a d => 10 * a + d) l a).
  { clear. induction l as [|d l IH]; intros a F A; cbn [length fold_left]; [cbn; lia|]. inversion F; subst.
    specialize (IH (10 * a + d) ltac:(assumption) ltac:(lia)). replace (Z.of_nat (S (length l))) with (Z.of_nat (length l) + 1) by lia.
    rewrite Z.pow_add_r by lia. change (10 ^ 1) with 10. pose proof (Z.pow_pos_nonneg 10 (Z.of_nat (length l))).
    rewrite Z.mul_add_distr_r in IH. nia. }
  destruct ds as [|d ds]; [congruence|]. inversion F; subst. destruct (Z.eq_dec d 0) as [->|D].
  - cbn in H0. rewrite (H0 eq_refl). cbn. lia.
  - specialize (P ds d ltac:(assumption) ltac:(lia)). unfold horner in U. cbn [fold_left] in U. rewrite Z.mul_0_r, Z.add_0_l in U.
    destruct (le_lt_dec k (length ds)) as [HL|]; [|cbn; lia].
    assert (10 ^ Z.of_nat k <= 10 ^ Z.of_nat (length ds)) by (apply Z.pow_le_mono_r; lia).
    pose proof (Z.pow_pos_nonneg 10 (Z.of_nat k)). nia.
Qed.
Lemma numeral_len20 : forall v t, is_s64 v \/ is_u64 v -> numeral v t -> (length t <= 20)%nat.
Proof.
  intros v t V (ds & F & N & Hn & L & ->). rewrite app_length, map_length. destruct (v <? 0) eqn:E; cbn [length].
  - pose proof (horner_digits 19 ds F L N) as K. change (10 ^ Z.of_nat 19) with 10000000000000000000 in K.
    unfold is_s64, is_u64, two63, two64 in V. specialize (K ltac:(lia) ltac:(lia)). lia.
  - pose proof (horner_digits 20 ds F L N) as K. change (10 ^ Z.of_nat 20) with 100000000000000000000 in K.
    unfold is_s64, is_u64, two63, two64 in V. specialize (K ltac:(lia) ltac:(lia)). lia.
Qed.
Lemma line_false : forall lvl t, line lvl t false = t.
Proof. intros lvl t. unfold line, indent. cbn [andb newline app]. apply app_nil_r. Qed.
Lemma len_empty : forall n, Z.of_nat (length (empty_tag n)) = len_of n + 3.
Proof. intros n. unfold empty_tag, len_of. rewrite !app_length. cbn [length]. lia. Qed.
Lemma len_element : forall n t, Z.of_nat (length (element n t)) = 2 * len_of n + 5 + Z.of_nat (length t).
Proof. intros n t. unfold element, open_tag, close_tag, len_of. rewrite !app_length. cbn [length]. lia. Qed.
Lemma bit_len : forall l, length (bit_text l) = length l.
Proof. intros l. apply map_length. Qed.
Definition weight (d : node) : Z := Z.of_nat (length (render d false)).
Lemma weight_tree : forall lvl n ds, weight (NTree lvl n ds) = 2 * len_of n + 5 + fold_right (fun d a => weight d + a) 0 ds.
Proof.
  intros lvl n ds. unfold weight at 1. cbn [render]. rewrite !line_false, !app_length. unfold open_tag, close_tag, len_of. rewrite !app_length. cbn [length].
  assert (E : Z.of_nat (length (flat_map (fun d => render d false) ds)) = fold_right (fun d a => weight d + a) 0 ds).
  { induction ds as [|d ds IH]; [reflexivity|]. cbn [flat_map fold_right]. rewrite app_length. unfold weight at 1. lia. }
  lia.
Qed.
Lemma weight_wrapped : forall lvl n m d, wrapped lvl n m d -> weight d <= 2 * len_of n + 8 + len_of m.
Proof.
  intros lvl [|x n] m d ->; unfold weight; cbn [render]; rewrite line_false.
  - rewrite len_empty. unfold len_of; cbn [length]; lia.
  - rewrite len_element, len_empty. lia.
Qed.
Definition eff (t : xty) (tag : option (list Z)) : option (list Z) :=
  match t, tag with XCho _, Some [] => None | _, _ => tag end.

Lemma xsize_nonneg : (forall t tag, roomy t -> 0 <= xsize t tag) /\ (forall fs, roomy_fields fs -> 0 <= xsize_fields fs) /\ (forall cs, roomy_alts cs -> 0 <= xsize_alts cs).
Proof.
  assert (K : forall n c, 0 <= c -> 0 <= xer_size n c) by (intros n c C; unfold xer_size, len_of; lia).
  apply xty_mutind.
  - intros u chk tag R. apply K. lia.
  - intros tag R. apply K. lia.
  - intros tag R. apply K. lia.
  - intros nm max sz tag R. apply K. exact R.
  - intros items tag R. apply K. unfold enum_size, len_of. lia.
  - intros mi ma tag R. apply K. cbn in R. lia.
  - intros mi ma tag R. apply K. cbn in R. lia.
  - intros tag R. contradiction.
  - intros mi ma child t IH tag (M & _ & R). apply K. apply Z.mul_nonneg_nonneg; [exact M|exact (IH child R)].
  - intros fs IH tag R. apply K. now apply IH.
  - intros cs IH tag R. cbn [xsize]. destruct tag; [apply K|]; now apply IH.
  - intros n t IH tag R. now apply IH.
  - intros R. cbn. lia.
  - intros n o t IHt fs IH (R1 & R2). cbn [xsize_fields]. specialize (IHt (Some n) R1). specialize (IH R2). lia.
  - intros R. cbn. lia.
  - intros n t IHt cs IH (R1 & R2). cbn [xsize_alts]. specialize (IHt (Some n) R1). specialize (IH R2). lia.
Qed.
Lemma eff_le : forall t tag, xsize t (eff t tag) <= xsize t tag.
Proof. intros [] tag; cbn [eff]; try lia. destruct tag as [[|x n]|]; cbn [xsize]; unfold xer_size, len_of; try lia. Qed.

Lemma xml_weight :
  (forall t lvl tag v d, sized_ref t tag -> sendable t -> roomy t -> fits t v -> xml t lvl tag v d -> weight d < xsize t (eff t tag)) /\
  (forall fs lvl l ds, sendable_fields fs -> roomy_fields fs -> fits_fields fs l -> xml_fields fs lvl l ds ->
     fold_right (fun d a => weight d + a) 0 ds <= xsize_fields fs) /\
  (forall cs lvl i v d, sendable_alts cs -> roomy_alts cs -> fits_alt cs i v -> xml_alt cs lvl i v d -> weight d < xsize_alts cs).
Proof.
  destruct xsize_nonneg as (NN & NNF & NNA).
  apply xty_mutind.
  - intros u chk lvl tag v d SR SD R F X. destruct v; try contradiction. destruct X as (t & N & ->). destruct F as (F & _). cbn [xsize eff]. unfold weight, xer_size. cbn [render].
    rewrite line_false, len_element. assert ((length t <= 20)%nat) by (apply (numeral_len20 z); [destruct u; auto|exact N]). lia.
  - intros lvl tag v d SR SD R F X. destruct v; try contradiction. apply weight_wrapped in X. cbn [xsize eff]. unfold xer_size.
    assert (len_of (bool_name b) <= 5) by (destruct b; cbn; lia). lia.
  - intros lvl tag v d SR SD R F X. destruct v; try contradiction. cbn in X. subst d. cbn [xsize eff]. unfold weight, xer_size. cbn [render]. rewrite line_false, len_empty.
    cbn [default_tag]. unfold len_of. lia.
  - intros nm max size lvl tag v d SR SD R F X. destruct v; try contradiction. cbn [xml fits roomy] in *. destruct F as (F & _). cbn [xsize eff]. unfold xer_size. subst d.
    set (n := or_else (default_tag (XStr nm max size)) tag). destruct l as [|x l]; unfold weight; cbn [render]; rewrite line_false.
    + rewrite len_empty. unfold len_of. lia.
    + rewrite len_element. unfold len_of in *. lia.
  - intros items lvl tag v d SR SD R F X. destruct v; try contradiction. destruct X as (m & I' & X). apply weight_wrapped in X. cbn [xsize eff roomy] in *.
    rewrite Forall_forall in R. specialize (R m (in_map snd _ _ I')). unfold xer_size, enum_size. lia.
  - intros min max lvl tag v d SR SD R F X. destruct v; try contradiction. cbn [xml fits] in *. destruct F as (F & _). unfold sized, len_of in F. subst d. cbn [xsize eff].
    unfold weight, xer_size. cbn [render]. rewrite line_false, len_element, hex_len. lia.
  - intros min max lvl tag v d SR SD R F X. destruct v; try contradiction. cbn [xml fits] in *. unfold sized in F. subst d. cbn [xsize eff].
    unfold weight, xer_size. cbn [render]. rewrite line_false, len_element, bit_len. lia.
  - intros lvl tag v d SR SD R. contradiction.
  - intros min max child t IH lvl tag v d SR (_ & SD) (M & RS & R) F X. destruct v; try contradiction. destruct X as (ds & X & ->). destruct F as (Z1 & F). unfold sized in Z1.
    cbn [xsize eff]. rewrite weight_tree. unfold xer_size.
    assert (K : fold_right (fun d a => weight d + a) 0 ds <= Z.of_nat (length l) * xsize t child).
    { clear Z1. revert F. induction X as [|v d l ds X1 X IHX]; intros F; [cbn; lia|]. inversion F as [|? ? F1 F2]; subst. cbn [fold_right length].
      specialize (IHX F2). specialize (IH _ _ _ _ RS SD R F1 X1). pose proof (eff_le t child). lia. }
    specialize (NN t child R). nia.
  - intros fs IH lvl tag v d SR SD R F X. destruct v; try contradiction. destruct X as (ds & X & ->). cbn [xsize eff]. rewrite weight_tree. unfold xer_size.
    specialize (IH _ _ _ SD R F X). lia.
  - intros cs IH lvl tag v d SR SD R F X. destruct v as [| | | | | | | | | | |i v|]; try contradiction. cbn [xml] in X. destruct tag as [[|x n]|]; cbn [eff xsize].
    + eapply IH; eassumption.
    + destruct X as (d' & X & ->). rewrite weight_tree. cbn [fold_right]. specialize (IH _ _ _ _ SD R F X). unfold xer_size. lia.
    + eapply IH; eassumption.
  - intros name t IH lvl tag v d SR SD R F X. cbn [xml sendable roomy fits] in *. cbn [xsize eff].
    destruct tag as [n|].
    + cbn [ref_tag] in X. assert (SR' : sized_ref t (Some n)) by (destruct t as [| | | | | | | | | | |? []]; exact I).
      specialize (IH _ _ _ _ SR' SD R F X). pose proof (eff_le t (Some n)). lia.
    + destruct t; try contradiction. cbn [ref_tag] in X. specialize (IH 0 (Some []) v d I SD R F X). exact IH.
  - intros lvl l ds SD R F X. destruct l; [|contradiction]. cbn in X. subst. cbn. lia.
  - intros name o t IHt fs IH lvl l ds (_ & _ & S1 & S2) (R1 & R2) F X. cbn [xsize_fields]. destruct l as [|[[|] c] l]; [contradiction| |].
    + destruct c as [v|]; [|contradiction]. destruct X as (d & ds' & X & X' & ->).
      assert (F' : fits t v /\ fits_fields fs l) by (cbn [fits_fields] in F; destruct o; exact F). destruct F' as (F1 & F2).
      cbn [fold_right]. specialize (IH _ _ _ S2 R2 F2 X'). assert (SR : sized_ref t (Some name)) by (destruct t as [| | | | | | | | | | |? []]; exact I).
      specialize (IHt _ _ _ _ SR S1 R1 F1 X). pose proof (eff_le t (Some name)). lia.
    + destruct X as (_ & X). assert (F2 : fits_fields fs l) by (cbn [fits_fields] in F; destruct o; try contradiction; apply F).
      specialize (IH _ _ _ S2 R2 F2 X). specialize (NN t (Some name) R1). lia.
  - intros lvl i v d SD R F. contradiction.
  - intros name t IHt cs IH lvl i v d (_ & _ & S1 & S2) (R1 & R2) F X. cbn [xsize_alts]. destruct i as [|i]; cbn [xml_alt fits_alt] in *.
    + assert (SR : sized_ref t (Some name)) by (destruct t as [| | | | | | | | | | |? []]; exact I).
      specialize (IHt _ _ _ _ SR S1 R1 F X). pose proof (eff_le t (Some name)). lia.
    + specialize (IH _ _ _ _ S2 R2 F X). lia.
Qed.
