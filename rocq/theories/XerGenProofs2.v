(** The generated XER decoders read any layout of the tree of the value. *)
From Verif Require Import Base Bits BitsProofs ByteStream UperTypes XerSpec Xer XerProofs XerProofs2 XerProofs3 XerProofs4 XerProofs5 XerGen XerGenSpec XerGenProofs.
From Verif Require OctetsProofs Properties2Proofs.
From Coq Require Import ZifyBool ZifyNat.
Ltac Zify.zify_post_hook ::= Z.div_mod_to_equations.

(** Reading with look-ahead: [la] follows [bs] inside the declared bytes. *)
Definition xahead {A} (f : B A) (a : A) (bs la rest : list Z) : Prop :=
  forall s pre, bat s pre (bs ++ la ++ rest) -> Z.of_nat (length pre + length bs + length la) <= size s ->
    f s = Ok (a, seek s (Z.of_nat (length pre + length bs))).
Lemma ahead_reads : forall A (f : B A) a bs la rest, xreads f a bs (la ++ rest) -> xahead f a bs la rest.
Proof. intros A f a bs la rest H s pre HB Z1. apply H; [exact HB|lia]. Qed.
Lemma ahead_ret : forall A (a : A) la rest, xahead (bret a) a [] la rest.
Proof. intros. apply ahead_reads, xreads_ret. Qed.
Lemma ahead_bind : forall A C (f : B A) a bs (k : A -> B C) c bs' la rest,
  xahead f a bs (bs' ++ la) rest -> xahead (k a) c bs' la rest -> xahead (bbind f k) c (bs ++ bs') la rest.
Proof.
  intros A C f a bs k c bs' la rest Hf Hk s pre HB Z1. rewrite app_length in Z1. rewrite <- app_assoc in HB. unfold bbind.
  rewrite (Hf s pre); [|now rewrite <- app_assoc|rewrite app_length; lia].
  rewrite (Hk _ (pre ++ bs)).
  - unfold seek. cbn [mem size ws]. rewrite !app_length. do 4 f_equal. lia.
  - apply bat_seek. exact HB.
  - cbn [seek size]. rewrite app_length. lia.
Qed.
Lemma ahead_opt : forall A C (f : B (option A)) a bs (k : A -> B (option C)) c bs' la rest,
  xahead f (Some a) bs (bs' ++ la) rest -> xahead (k a) c bs' la rest -> xahead (bopt f k) c (bs ++ bs') la rest.
Proof. intros. unfold bopt. eapply ahead_bind; [eassumption|]. assumption. Qed.
Lemma ahead_then : forall A C (f : B A) a bs (k : A -> B C) c la rest,
  xahead f a bs la rest -> xreads (k a) c la rest -> xreads (bbind f k) c (bs ++ la) rest.
Proof.
  intros A C f a bs k c la rest Hf Hk s pre HB Z1. rewrite app_length in Z1. rewrite <- app_assoc in HB. unfold bbind.
  rewrite (Hf s pre HB ltac:(lia)). rewrite (Hk _ (pre ++ bs)).
  - unfold seek. cbn [mem size ws]. rewrite !app_length. do 4 f_equal. lia.
  - apply bat_seek. exact HB.
  - cbn [seek size]. rewrite app_length. lia.
Qed.
Lemma ahead_peek : forall A (f : B A) a p q la rest, la = p ++ q -> peeks f a p (q ++ rest) -> xahead f a [] la rest.
Proof.
  intros A f a p q la rest -> H s pre HB Z1. cbn [app length] in *. rewrite <- app_assoc in HB. rewrite app_length in Z1.
  rewrite (H s pre HB ltac:(lia)). do 2 f_equal. symmetry. apply seek_self. rewrite Nat.add_0_r. apply HB.
Qed.
Lemma ahead_eq : forall A (f : B A) a bs bs' la rest, bs = bs' -> xahead f a bs la rest -> xahead f a bs' la rest.
Proof. intros; subst; assumption. Qed.

Lemma reads_value : forall A (m : B (option A)) (f : A -> value) a bs rest, xreads m (Some a) bs rest ->
  xreads (as_value m f) (true, f a) bs rest.
Proof.
  intros A m f a bs rest H. unfold as_value. eapply xreads_eq; [apply app_nil_r|]. eapply xreads_bind; [exact (H : xreads m (Some a) bs ([] ++ rest))|]. apply xreads_ret.
Qed.

(** ** Elements that hold an empty element *)
Lemma read_boolean_wrap : forall L w w1 w2 t b rest, Forall white w -> Forall white w1 -> Forall white w2 -> name_ok t ->
  xreads (Xer_DecodeBoolean L t) (Some b) (w ++ open_tag t ++ w1 ++ empty_tag (bool_name b) ++ w2 ++ close_tag t) rest.
Proof.
  intros L w w1 w2 t b rest W W1 W2 T. unfold Xer_DecodeBoolean.
  assert (N : name_ok (bool_name b)) by (destruct b; [apply t_true_ok|apply t_false_ok]).
  assert (E : list_eqb (bool_name b) t_true = b) by (destruct b; reflexivity).
  rewrite app_assoc. eapply xreads_opt; [apply (read_start L w t None _ W T)|].
  rewrite app_assoc. eapply xreads_peek_opt; [apply (peeks_tag L w1 (bool_name b) true _ W1 N)|].
  cbv zeta. rewrite E. change (if b then t_true else t_false) with (bool_name b).
  eapply xreads_opt; [apply read_primitive_empty; [assumption..|lia]|].
  eapply xreads_eq; [apply app_nil_r|]. eapply xreads_opt; [apply read_end; assumption|]. apply xreads_ret.
Qed.
Lemma read_enumerated_wrap : forall L w w1 w2 t n rest, Forall white w -> Forall white w1 -> Forall white w2 -> name_ok t -> name_ok n ->
  xreads (Xer_DecodeEnumerated L t) (Some n) (w ++ open_tag t ++ w1 ++ empty_tag n ++ w2 ++ close_tag t) rest.
Proof.
  intros L w w1 w2 t n rest W W1 W2 T N. unfold Xer_DecodeEnumerated.
  rewrite app_assoc. eapply xreads_opt; [apply (read_start L w t None _ W T)|].
  rewrite app_assoc. eapply xreads_peek_opt; [apply (peeks_tag L w1 n true _ W1 N)|].
  eapply xreads_opt; [apply read_primitive_empty; [assumption..|lia]|].
  eapply xreads_eq; [apply app_nil_r|]. eapply xreads_opt; [apply read_end; assumption|]. apply xreads_ret.
Qed.
Lemma read_boolean_layout : forall L lvl t b d txt rest, outer_ok t -> wrapped lvl t (bool_name b) d -> layout d txt ->
  xreads (Xer_DecodeBoolean L t) (Some b) txt rest.
Proof.
  intros L lvl t b d txt rest O -> H. destruct t as [|x t].
  - inversion H; subst. apply (read_boolean L w [] b rest); [assumption|now left].
  - inversion H; subst. apply read_boolean_wrap; try assumption. destruct O; [discriminate|assumption].
Qed.
Lemma read_enumerated_layout : forall L lvl t n d txt rest, outer_ok t -> name_ok n -> wrapped lvl t n d -> layout d txt ->
  xreads (Xer_DecodeEnumerated L t) (Some n) txt rest.
Proof.
  intros L lvl t n d txt rest O N -> H. destruct t as [|x t].
  - inversion H; subst. apply (read_enumerated L w [] n rest); [assumption|now left|assumption].
  - inversion H; subst. apply read_enumerated_wrap; try assumption. destruct O; [discriminate|assumption].
Qed.

(** ** Names *)
Definition nname (d : node) : list Z :=
  match d with NEmpty _ n | NText _ n _ | NWrap _ n _ | NTree _ n _ => n end.
Lemma layout_head : forall d txt, layout d txt -> exists w e q, Forall white w /\ txt = (w ++ head_tag (nname d) e) ++ q.
Proof.
  intros d txt H. inversion H; subst; cbn [nname].
  - exists w, true, []. split; [assumption|]. now rewrite app_nil_r.
  - exists w, false, (t ++ close_tag n). split; [assumption|]. unfold element, head_tag. now rewrite <- app_assoc.
  - exists w, false, (w1 ++ empty_tag m ++ w2 ++ close_tag n). split; [assumption|]. unfold head_tag. now rewrite <- !app_assoc.
  - exists w, false, (ts ++ w' ++ close_tag n). split; [assumption|]. unfold head_tag. now rewrite <- !app_assoc.
Qed.
Lemma ident_ok : forall l, negb (Nat.eqb (length l) 0) && (Nat.leb (length l) 99) && forallb (fun c => ((65 <=? c) && (c <=? 90)) || ((97 <=? c) && (c <=? 122)) || ((48 <=? c) && (c <=? 57)) || (c =? 45)) l = true -> name_ok l.
Proof.
  intros l H. apply andb_prop in H. destruct H as (H & F). apply andb_prop in H. destruct H as (N & H). split; [|split].
  - intros ->. discriminate.
  - lia.
  - apply Forall_forall. intros c I'. rewrite forallb_forall in F. specialize (F c I'). unfold id_char. lia.
Qed.
Lemma default_ok : forall t, untagged t = false -> (forall n t', t <> XRef n t') -> name_ok (default_tag t).
Proof.
  intros [] H R; try discriminate; cbn [default_tag]; try (apply ident_ok; reflexivity).
  - destruct numeric; apply ident_ok; reflexivity.
  - now destruct (R name t).
Qed.
Lemma tag_name : forall t tag, untagged t = false -> (forall n t', t <> XRef n t') -> tag_ok t tag -> name_ok (or_else (default_tag t) tag).
Proof.
  intros t tag U R T. destruct tag as [[|x n]|]; cbn [or_else].
  - destruct t; cbn in T, U; try congruence. now destruct (R name t).
  - destruct t; try exact T. now destruct (R name t).
  - now apply default_ok.
Qed.
Lemma outer_name : forall t tag, untagged t = true -> tag_ok t tag -> outer_ok (or_else (default_tag t) tag).
Proof.
  intros t tag U T. destruct tag as [[|x n]|]; cbn [or_else]; [now left| |destruct t; try discriminate; now left].
  right. destruct t; try discriminate; exact T.
Qed.
Lemma wrapped_name : forall lvl n m d, wrapped lvl n m d -> nname d = match n with [] => m | _ => n end.
Proof. intros lvl [|x n] m d ->; reflexivity. Qed.

Definition name_of (tag : option (list Z)) (d : node) : Prop :=
  name_ok (nname d) /\ match tag with Some (x :: n) => nname d = x :: n | _ => True end.
Lemma name_of_or : forall t tag d, untagged t = false -> (forall n t', t <> XRef n t') -> tag_ok t tag ->
  nname d = or_else (default_tag t) tag -> name_of tag d.
Proof.
  intros t tag d U R T E. split; [rewrite E; now apply tag_name|]. destruct tag as [[|x n]|]; auto.
Qed.
Lemma name_of_wrapped : forall t tag lvl m d, untagged t = true -> name_ok m -> tag_ok t tag ->
  wrapped lvl (or_else (default_tag t) tag) m d -> name_of tag d.
Proof.
  intros t tag lvl m d U N T W. pose proof (wrapped_name _ _ _ _ W) as E. destruct (outer_name t tag U T) as [O|O].
  - rewrite O in E. split; [now rewrite E|]. destruct tag as [[|x n]|]; auto. cbn in O. discriminate.
  - assert (E' : nname d = or_else (default_tag t) tag) by (destruct (or_else (default_tag t) tag); [destruct O; congruence|exact E]).
    split; [now rewrite E'|]. destruct tag as [[|x n]|]; auto.
Qed.
Lemma bool_name_ok : forall b, name_ok (bool_name b).
Proof. intros []; [apply t_true_ok|apply t_false_ok]. Qed.

Lemma xml_name :
  (forall t lvl tag v d, tag_ok t tag -> sendable t -> xml t lvl tag v d -> name_of tag d) /\
  (forall fs lvl l ds, sendable_fields fs -> xml_fields fs lvl l ds ->
     Forall (fun d => name_ok (nname d) /\ In (nname d) (field_names fs)) ds) /\
  (forall cs lvl i v d, sendable_alts cs -> xml_alt cs lvl i v d -> name_ok (nname d) /\ nth_error (alt_names cs) i = Some (nname d)).
Proof.
  apply xty_mutind.
  - intros u chk lvl tag v d T SD X. destruct v; try contradiction. destruct X as (txt & _ & ->). now apply (name_of_or (XInt u chk)).
  - intros lvl tag v d T SD X. destruct v; try contradiction. apply (name_of_wrapped XBool tag lvl (bool_name b)); [reflexivity|apply bool_name_ok|exact T|exact X].
  - intros lvl tag v d T SD X. destruct v; try contradiction. cbn in X. subst d. now apply (name_of_or XNull).
  - intros nm max size lvl tag v d T SD X. destruct v; try contradiction. cbn [xml] in X. apply (name_of_or (XStr nm max size)); [reflexivity|discriminate|exact T|].
    subst d. destruct l; reflexivity.
  - intros items lvl tag v d T (D & O) X. destruct v; try contradiction. destruct X as (m & I' & X).
    apply (name_of_wrapped (XEnum items) tag lvl m); [reflexivity| |exact T|exact X]. rewrite Forall_forall in O. apply O. apply (in_map snd _ _ I').
  - intros min max lvl tag v d T SD X. destruct v; try contradiction. cbn in X. subst d. now apply (name_of_or (XOct min max)).
  - intros min max lvl tag v d T SD X. destruct v; try contradiction. cbn in X. subst d. now apply (name_of_or (XBit min max)).
  - intros lvl tag v d T SD X. destruct v; try contradiction. destruct X as (txt & _ & ->). now apply (name_of_or XOid).
  - intros min max child t IH lvl tag v d T SD X. destruct v; try contradiction. destruct X as (ds & _ & ->). now apply (name_of_or (XSeqOf min max child t)).
  - intros fs IH lvl tag v d T SD X. destruct v; try contradiction. destruct X as (ds & _ & ->). now apply (name_of_or (XSeq fs)).
  - intros cs IH lvl tag v d T SD X. destruct v as [| | | | | | | | | | |i v|]; try contradiction. cbn [xml sendable tag_ok] in *. destruct tag as [[|x n]|].
    + destruct (IH _ _ _ _ SD X). split; auto.
    + destruct X as (d' & X & ->). split; [exact T|reflexivity].
    + destruct (IH _ _ _ _ SD X). split; auto.
  - intros name t IH lvl tag v d T SD X. cbn [xml sendable tag_ok] in *. destruct (IH _ _ _ _ T SD X) as (N & E). split; [exact N|].
    destruct tag as [[|x n]|]; auto.
  - intros lvl l ds SD X. destruct l; [|contradiction]. cbn in X. subst. constructor.
  - intros name o t IHt fs IH lvl l ds (N & T & S1 & S2) X. cbn [field_names].
    assert (M : forall ds, Forall (fun d => name_ok (nname d) /\ In (nname d) (field_names fs)) ds ->
                Forall (fun d => name_ok (nname d) /\ In (nname d) (name :: field_names fs)) ds).
    { intros ds0 F. eapply Forall_impl; [|exact F]. intros d (A1 & A2). split; [exact A1|now right]. }
    destruct l as [|[[|] c] l]; [contradiction| |].
    + destruct c as [v|]; [|contradiction]. destruct X as (d & ds' & X & X' & ->). constructor.
      * destruct (IHt _ _ _ _ T S1 X) as (A1 & A2). split; [exact A1|]. left. destruct name; [destruct N; congruence|congruence].
      * apply M. eapply IH; eassumption.
    + destruct X as (_ & X). apply M. eapply IH; eassumption.
  - intros lvl i v d SD X. contradiction.
  - intros name t IHt cs IH lvl i v d (N & T & S1 & S2) X. destruct i as [|i]; cbn [xml_alt alt_names nth_error] in *.
    + destruct (IHt _ _ _ _ T S1 X) as (A1 & A2). split; [exact A1|]. destruct name; [destruct N; congruence|congruence].
    + eapply IH; eassumption.
Qed.

Lemma enum_value_in : forall items z m, NoDup (map snd items) -> In (z, m) items -> enum_value items m = Some z.
Proof.
  induction items as [|[v n] items IH]; intros z m D H; [destruct H|]. inversion D as [|? ? N D']; subst. cbn [enum_value]. destruct H as [H|H].
  - injection H as -> ->. now rewrite list_eqb_refl.
  - rewrite list_eqb_neq; [now apply IH|]. intros ->. apply N. apply (in_map snd _ _ H).
Qed.

(** Where no component starts: the rest of the components, or the closing tag. *)
Lemma peek_absent : forall L name ds ts w' n rest, layouts ds ts -> Forall (fun d => name_ok (nname d) /\ nname d <> name) ds -> Forall white w' ->
  xahead (Xer_NextStartElementIs L name) false [] (ts ++ w' ++ close_tag n) rest.
Proof.
  intros L name ds ts w' n rest H F W. inversion H as [|d t ds' ts' D H' E1 E2]; subst.
  - cbn [app]. eapply ahead_peek; [symmetry; apply app_nil_r|]. apply peeks_start_close; exact W.
  - inversion F as [|? ? (N & X) F']; subst. destruct (layout_head _ _ D) as (w & e & q & Hw & ->). rewrite <- !app_assoc.
    eapply ahead_peek; [rewrite (app_assoc w); reflexivity|]. now apply peeks_start_other.
Qed.
Lemma peek_present : forall L d t q rest, layout d t -> name_ok (nname d) ->
  xahead (Xer_NextStartElementIs L (nname d)) true [] (t ++ q) rest.
Proof.
  intros L d t q rest D N. destruct (layout_head _ _ D) as (w & e & q' & Hw & ->). rewrite <- !app_assoc.
  eapply ahead_peek; [rewrite (app_assoc w); reflexivity|]. now apply peeks_start_true.
Qed.
Lemma peek_item : forall L n d t q rest, layout d t -> name_ok (nname d) ->
  xahead (Xer_NextEndElementIs L n) false [] (t ++ q) rest.
Proof.
  intros L n d t q rest D N. destruct (layout_head _ _ D) as (w & e & q' & Hw & ->). rewrite <- !app_assoc.
  eapply ahead_peek; [rewrite (app_assoc w); reflexivity|]. now apply peeks_end_start.
Qed.
