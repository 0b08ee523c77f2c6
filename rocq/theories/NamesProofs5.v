(** Proofs for C65: what one call does, exactly. *)
From Verif Require Import Names NamesSpec NamesProofs NamesProofs2 NamesProofs3 NamesProofs4.
From Coq Require Import String Ascii List Bool Arith Lia Permutation.
Import ListNotations.
Local Open Scope string_scope.
Local Open Scope list_scope.

Section Same.
Variable f : string -> string -> bool.
Hypothesis f_refl : forall x, f x x = true.
Hypothesis f_same : forall x y, f x y = true -> forall z, f x z = f y z.
Lemma filter_same : forall x y l, f x y = true -> filter (f x) l = filter (f y) l.
Proof. intros x y l H. apply filter_ext. intros z. now apply f_same. Qed.
Lemma filter_other : forall x y l, f x y = false -> filter (f x) (filter (fun z => negb (String.eqb z y)) l) = filter (f x) l.
Proof.
  intros x y l H. induction l as [|z l IH]; cbn [filter]; [reflexivity|]. destruct (String.eqb_spec z y) as [->|N]; cbn [negb].
  - now rewrite IH, H.
  - cbn [filter]. rewrite IH. reflexivity.
Qed.
Lemma filter_length : forall (g : string -> bool) l, List.length (filter g l) <= List.length l.
Proof. induction l as [|x l IH]; cbn; [lia|]. destruct (g x); cbn; lia. Qed.
Lemma dup_exists : forall n l x, List.length l <= n -> (existsb (f x) (keepDup f n l) = true <-> twice f l x).
Proof.
  unfold twice. induction n as [|n IH]; intros l x L.
  - destruct l; [|cbn in L; lia]. cbn. split; [discriminate|lia].
  - destruct l as [|y ys]; [cbn; split; [discriminate|lia]|]. cbn [List.length] in L. cbn [keepDup]. cbn [filter].
    destruct (filter (f y) ys) as [|w ws] eqn:E.
    + destruct (f x y) eqn:Q.
      * rewrite IH by lia. rewrite (filter_same _ _ ys Q), E. cbn. lia.
      * apply IH. lia.
    + cbn [existsb]. destruct (f x y) eqn:Q; cbn [orb].
      * rewrite (filter_same _ _ ys Q), E. cbn. split; [lia|reflexivity].
      * rewrite IH by (pose proof (filter_length (fun z => negb (String.eqb z y)) ys); lia). now rewrite filter_other.
Qed.
End Same.
Lemma eqb_same : forall x y, String.eqb x y = true -> forall z, String.eqb x z = String.eqb y z.
Proof. intros x y H z. apply String.eqb_eq in H. congruence. Qed.
Lemma icompare_same : forall x y, icompare x y = true -> forall z, icompare x z = icompare y z.
Proof. intros x y H z. unfold icompare in *. apply String.eqb_eq in H. congruence. Qed.
Lemma occurs_contains : forall x s, contains x s = true <-> occurs x s.
Proof. intros x s. rewrite contains_spec. unfold occurs. reflexivity. Qed.
Lemma newPrefix_some : forall key name p, newPrefix key name = Some p -> exists k1 k k2, key = k1 ++ k :: k2 /\ Forall (fun z => occurs (ToC z) name) k2 /\
  ~ occurs (ToC k) name /\ p = ToC k.
Proof.
  intros key name p H. unfold newPrefix in H. rewrite <- (rev_involutive key). revert H. generalize (rev key). clear key. intros l H.
  induction l as [|x l IH]; cbn [map find] in H; [discriminate|]. destruct (contains (ToC x) name) eqn:C; cbn [negb] in H.
  - destruct (IH H) as (k1 & k & k2 & E & A & B & D). exists k1, k, (k2 ++ [x]). split; [cbn [rev]; rewrite E, <- app_assoc; reflexivity|].
    split; [|auto]. apply Forall_app. split; [exact A|]. constructor; [now apply occurs_contains|constructor].
  - assert (p = ToC x) by congruence. subst. exists (rev l), x, []. cbn [rev]. split; [reflexivity|]. split; [constructor|]. split; [|reflexivity].
    intros O. apply occurs_contains in O. congruence.
Qed.
Lemma newPrefix_none : forall key name, newPrefix key name = None <-> Forall (fun z => occurs (ToC z) name) key.
Proof.
  intros key name. unfold newPrefix. split.
  - intros H. apply Forall_forall. intros z I. apply (find_none _ _) with (x := ToC z) in H; [|apply in_map; now apply -> in_rev]. apply negb_false_iff in H.
    now apply occurs_contains.
  - intros H. destruct (find _ _) as [p|] eqn:E; [|reflexivity]. apply find_some in E as [I N]. apply in_map_iff in I as (z & <- & I). apply in_rev in I.
    rewrite Forall_forall in H. specialize (H _ I). apply occurs_contains in H. rewrite H in N. discriminate.
Qed.
Lemma new_takes : forall f all key name q, (forall x, f x x = true) -> (forall x y, f x y = true -> forall z, f x z = f y z) ->
  new_name f (keepDuplicates f all) key name = Some q -> takes f all (key, name) (key, q).
Proof.
  intros f all key name q R S H. unfold new_name in H. split; [reflexivity|]. cbn [fst snd].
  pose proof (dup_exists f S (List.length all) all name (le_n _)) as D. fold (keepDuplicates f all) in D. destruct (existsb _ _).
  - right. optinv H. split; [now apply D|]. apply newPrefix_some in E as (k1 & k & k2 & A & B & C & ->). exists k1, k, k2. auto.
  - left. split; [|congruence]. intros T. apply D in T. discriminate.
Qed.
Lemma new_stuck : forall f all key name, (forall x, f x x = true) -> (forall x y, f x y = true -> forall z, f x z = f y z) ->
  (new_name f (keepDuplicates f all) key name = None <-> stuck f all (key, name)).
Proof.
  intros f all key name R S. unfold new_name, stuck. cbn [fst snd].
  pose proof (dup_exists f S (List.length all) all name (le_n _)) as D. fold (keepDuplicates f all) in D. rewrite <- newPrefix_none.
  destruct (existsb _ _).
  - destruct (newPrefix key name); cbn [option_map]; split; [discriminate|intros [_ H]; discriminate|intros _; split; [now apply D|reflexivity]|reflexivity].
  - split; [discriminate|]. intros [T _]. apply D in T. discriminate.
Qed.
Lemma enums_takes : forall r r', handleEnums SelectiveEnumerants r = Again r' ->
  Forall2 (takes String.eqb (doubleEnumNames0 r ++ c_keywords)) (items_of enum_items r) (items_of enum_items r').
Proof.
  intros r r' H. apply enums_again in H as [_ H]. cbv zeta in H.
  pose proof (clone_items _ _ enum_items r r' H ltac:(intros key t t' J; apply enum_step; exact J)) as F.
  eapply Forall2_impl'; [|exact F]. intros [k n] [k' n'] [E N]. cbn [fst snd] in *. subst k'. apply new_takes; [apply String.eqb_refl|exact eqb_same|exact N].
Qed.
Lemma choices_takes : forall r r', handleEnumChoices SelectiveEnumerants r = Again r' -> Forall (fun s => ToC s = s) (names_of choice_names r) ->
  Forall2 (takes icompare (names_of choice_names r)) (items_of choice_items r) (items_of choice_items r').
Proof.
  intros r r' H C. apply choices_again in H as [_ H]. cbv zeta in H.
  assert (CC : cleans (names_of choice_names r)) by (eapply Forall_impl; [|exact C]; intros s <-; apply ToC_clean). clear C.
  pose proof (clone_items _ _ choice_items r r' H ltac:(intros key t t' J; apply choice_step; exact J)) as F. rewrite <- names_items_c in CC.
  revert CC. generalize (names_of choice_names r) as all, F. clear F H. intros all F CC. induction F as [|[k n] [k' n'] l l' (E & q & N & Q) F IH]; constructor.
  - cbn [fst snd] in *. subst k' n'. inversion CC as [|? ? C1 _]; subst. cbn [snd] in C1. rewrite ToC_id by (eapply new_name_clean; [exact N|exact C1]).
    apply new_takes; [apply icompare_refl|exact icompare_same|exact N].
  - apply IH. now inversion CC.
Qed.
Lemma choice_total : forall dup t key, (forall x, In x (choice_items key t) -> new_name icompare dup (fst x) (snd x) <> None) ->
  choice_type SelectiveEnumerants dup key t <> None.
Proof.
  intros dup t. induction t as [items|l IH|l IH|t IH|] using nty_rect'; intros key H; cbn [choice_type].
  - discriminate.
  - apply option_map_total, omap_total. intros c I. apply option_map_total. rewrite Forall_forall in IH. apply (IH _ I). intros x J. apply H.
    cbn [choice_items]. apply in_flat_map. exists c. auto.
  - match goal with |- match ?o with _ => _ end <> None => assert (K : o <> None) end.
    { apply omap_total. intros [[n p] ty] I. rewrite Forall_forall in IH. pose proof (IH _ I (key ++ [n])) as A. cbn [snd] in A.
      destruct (choice_type SelectiveEnumerants dup (key ++ [n]) ty) eqn:E.
      - pose proof (H (key, p)) as B. cbn [fst snd] in B. destruct (new_name icompare dup key p); [discriminate|]. exfalso. apply B; [|reflexivity].
        cbn [choice_items]. apply in_app_iff. left. apply in_map_iff. exists (n, p, ty). auto.
      - exfalso. apply A; [|reflexivity]. intros x J. apply H. cbn [choice_items]. apply in_app_iff. right. apply in_flat_map. exists (n, p, ty). auto. }
    destruct (omap _ l); [discriminate|congruence].
  - apply option_map_total. apply IH. exact H.
  - discriminate.
Qed.
Lemma clone_total_c : forall dup r, (forall x, In x (items_of choice_items r) -> new_name icompare dup (fst x) (snd x) <> None) ->
  clone (choice_type SelectiveEnumerants dup) r <> None.
Proof.
  intros dup r H. unfold clone. apply omap_total. intros m I. apply option_map_total, omap_total. intros a J. apply option_map_total, choice_total.
  intros x K. apply H. unfold items_of. apply in_flat_map. exists m. split; [exact I|]. apply in_flat_map. exists a. auto.
Qed.
Lemma none_exists : forall (A : Type) (f : A -> option string) l, (exists x, In x l /\ f x = None) \/ (forall x, In x l -> f x <> None).
Proof.
  induction l as [|x l [[y [I E]]|H]].
  - right. intros x [].
  - left. exists y. split; [now right|exact E].
  - destruct (f x) eqn:E; [right|left; exists x; split; [now left|exact E]]. intros y [->|I]; [congruence|auto].
Qed.
Lemma Forall2_some : forall (A B : Type) (R : A -> B -> Prop) l l' x, Forall2 R l l' -> In x l -> exists y, R x y.
Proof. intros A B R l l' x H. induction H as [|a b l l' q H IH]; intros I; [destruct I|]. destruct I as [->|I]; eauto. Qed.
Lemma dup_nonempty : forall f all x, (forall x y, f x y = true -> forall z, f x z = f y z) -> twice f all x -> keepDuplicates f all <> [].
Proof. intros f all x S T E. apply (dup_exists f S (List.length all) all x (le_n _)) in T. unfold keepDuplicates in E. rewrite E in T. discriminate. Qed.
Lemma enums_raise : forall r, handleEnums SelectiveEnumerants r = Raise <->
  exists x, In x (items_of enum_items r) /\ stuck String.eqb (doubleEnumNames0 r ++ c_keywords) x.
Proof.
  intros r. unfold handleEnums. set (all := doubleEnumNames0 r ++ c_keywords).
  destruct (call_inv (keepDuplicates String.eqb all) (fun dup => clone (enum_type SelectiveEnumerants dup)) r) as [[D E]|[D E]].
  - rewrite E. split; [discriminate|]. intros (x & _ & T & _). exfalso. eapply dup_nonempty; [exact eqb_same|exact T|exact D].
  - destruct (clone (enum_type SelectiveEnumerants (keepDuplicates String.eqb all)) r) as [r'|] eqn:C; rewrite E.
    + split; [discriminate|]. intros ([k n] & I & T). exfalso. apply new_stuck in T; [|apply String.eqb_refl|exact eqb_same].
      pose proof (clone_items _ _ enum_items r r' C ltac:(intros key t t' J; apply enum_step; exact J)) as F.
      destruct (Forall2_some _ _ _ _ _ _ F I) as (y & _ & N). cbn [fst snd] in N. congruence.
    + split; [intros _|reflexivity]. destruct (none_exists _ (fun x => new_name String.eqb (keepDuplicates String.eqb all) (fst x) (snd x)) (items_of enum_items r)) as [([k n] & I & N)|N].
      * exists (k, n). split; [exact I|]. apply new_stuck; [apply String.eqb_refl|exact eqb_same|exact N].
      * exfalso. exact (clone_total _ _ N C).
Qed.
Lemma choices_raise : forall r, handleEnumChoices SelectiveEnumerants r = Raise <->
  exists x, In x (items_of choice_items r) /\ stuck icompare (names_of choice_names r) x.
Proof.
  intros r. unfold handleEnumChoices. set (all := names_of choice_names r).
  destruct (call_inv (keepDuplicates icompare all) (fun dup => clone (choice_type SelectiveEnumerants dup)) r) as [[D E]|[D E]].
  - rewrite E. split; [discriminate|]. intros (x & _ & T & _). exfalso. eapply dup_nonempty; [exact icompare_same|exact T|exact D].
  - destruct (clone (choice_type SelectiveEnumerants (keepDuplicates icompare all)) r) as [r'|] eqn:C; rewrite E.
    + split; [discriminate|]. intros ([k n] & I & T). exfalso. apply new_stuck in T; [|apply icompare_refl|exact icompare_same].
      pose proof (clone_items _ _ choice_items r r' C ltac:(intros key t t' J; apply choice_step; exact J)) as F.
      destruct (Forall2_some _ _ _ _ _ _ F I) as (y & _ & q & N & _). cbn [fst snd] in N. congruence.
    + split; [intros _|reflexivity]. destruct (none_exists _ (fun x => new_name icompare (keepDuplicates icompare all) (fst x) (snd x)) (items_of choice_items r)) as [([k n] & I & N)|N].
      * exists (k, n). split; [exact I|]. apply new_stuck; [apply icompare_refl|exact icompare_same|exact N].
      * exfalso. exact (clone_total_c _ _ N C).
Qed.

(** * All items alike *)
Lemma one_refl : forall g, one_prefix g g.
Proof. intros g. exists "". symmetry. rewrite <- (map_id g) at 2. apply map_ext. reflexivity. Qed.
Lemma one_trans : forall a b c, one_prefix a b -> one_prefix b c -> one_prefix a c.
Proof. intros a b c [p ->] [q ->]. exists (q ++ p)%string. rewrite map_map. apply map_ext. intros s. now rewrite sapp_assoc. Qed.
Lemma enum_group : forall dup t key t', enum_type AllEnumerants dup key t = Some t' -> Forall2 one_prefix (enum_groups t) (enum_groups t').
Proof.
  intros dup t. induction t as [items|l IH|l IH|t IH|] using nty_rect'; intros key t' H; cbn [enum_type] in H.
  - destruct (omap (copyItem dup key) items) as [c|]; [|discriminate]. destruct (longest _) as [p|]; [|discriminate].
    assert (t' = NEnum (map (fun it => (fst it, (p ++ snd it)%string)) items)) by congruence. subst. cbn [enum_groups]. constructor; [|constructor].
    exists p. now rewrite !map_map.
  - optinv H. apply omap_some in E. cbn [enum_groups]. apply (Forall2_flat_map _ _ _ _ _ _ _ _ _ _ E). intros a b I Q. optinv Q. cbn [fst snd].
    rewrite Forall_forall in IH. eapply IH; [exact I|exact E0].
  - optinv H. apply omap_some in E. cbn [enum_groups]. apply (Forall2_flat_map _ _ _ _ _ _ _ _ _ _ E). intros a b I Q. optinv Q. cbn [fst snd].
    rewrite Forall_forall in IH. eapply IH; [exact I|exact E0].
  - optinv H. cbn [enum_groups]. eapply IH. exact E.
  - assert (t' = NOther) by congruence. subst. constructor.
Qed.
Lemma choice_group : forall dup t key t', choice_type AllEnumerants dup key t = Some t' -> Forall2 one_prefix (choice_groups t) (choice_groups t').
Proof.
  intros dup t. induction t as [items|l IH|l IH|t IH|] using nty_rect'; intros key t' H; cbn [choice_type] in H.
  - assert (t' = NEnum items) by congruence. subst. constructor.
  - optinv H. apply omap_some in E. cbn [choice_groups]. apply (Forall2_flat_map _ _ _ _ _ _ _ _ _ _ E). intros a b I Q. optinv Q. cbn [fst snd].
    rewrite Forall_forall in IH. eapply IH; [exact I|exact E0].
  - match type of H with match ?o with _ => _ end = _ => destruct o as [l'|] eqn:E; [|discriminate] end. destruct (longest _) as [p|]; [|discriminate].
    assert (t' = NChoice (map (fun c => (fst (fst c), (p ++ snd (fst c))%string, snd c)) l)) by congruence. subst. cbn [choice_groups]. constructor.
    + exists p. now rewrite !map_map.
    + rewrite (flat_map_concat_map _ (map _ l)), map_map. cbn [snd]. rewrite <- flat_map_concat_map. apply Forall2_refl'. exact one_refl.
  - optinv H. cbn [choice_groups]. eapply IH. exact E.
  - assert (t' = NOther) by congruence. subst. constructor.
Qed.
Lemma clone_groups : forall f g r r', clone f r = Some r' -> (forall key t t', f key t = Some t' -> Forall2 one_prefix (g t) (g t')) ->
  Forall2 one_prefix (groups_of g r) (groups_of g r').
Proof.
  intros f g r r' H K. apply clone_inv in H. unfold groups_of. apply (Forall2_flat_map _ _ _ _ _ _ _ _ _ _ H).
  intros m m' _ (N & _ & T). apply (Forall2_flat_map _ _ _ _ _ _ _ _ _ _ T). intros a b _ (F & E). eapply K. exact E.
Qed.
Lemma enums_groups : forall n r r', run (handleEnums AllEnumerants) n r = Some (Done r') -> Forall2 one_prefix (groups_of enum_groups r) (groups_of enum_groups r').
Proof.
  apply run_ind.
  - intros r _. apply Forall2_refl'. exact one_refl.
  - intros r r1 r' H K. apply enums_again in H as [_ H]. cbv zeta in H. eapply Forall2_trans'; [exact one_trans| |exact K].
    eapply clone_groups; [exact H|]. intros key t t'. apply enum_group.
  - intros r x H. now apply enums_return in H.
Qed.
Lemma choices_groups : forall n r r', run (handleEnumChoices AllEnumerants) n r = Some (Done r') -> Forall2 one_prefix (groups_of choice_groups r) (groups_of choice_groups r').
Proof.
  apply run_ind.
  - intros r _. apply Forall2_refl'. exact one_refl.
  - intros r r1 r' H K. apply choices_again in H as [_ H]. cbv zeta in H. eapply Forall2_trans'; [exact one_trans| |exact K].
    eapply clone_groups; [exact H|]. intros key t t'. apply choice_group.
  - intros r x H. now apply choices_return in H.
Qed.

(** * Both passes *)
Lemma items_shape : forall t key, map fst (enum_items key (shape t)) = map fst (enum_items key t) /\ map fst (choice_items key (shape t)) = map fst (choice_items key t).
Proof.
  intros t. induction t as [items|l IH|l IH|t IH|] using nty_rect'; intros key; cbn [shape enum_items choice_items]; rewrite ?map_map; cbn [fst snd].
  - auto.
  - rewrite Forall_forall in IH. rewrite !map_flat_map, !(flat_map_concat_map _ (map _ l)), !map_map. cbn [fst snd]. rewrite <- !flat_map_concat_map.
    split; apply flat_map_ext'; apply Forall_forall; intros c I; now apply IH.
  - rewrite Forall_forall in IH. rewrite !map_app, !map_map, !map_flat_map, !(flat_map_concat_map _ (map _ l)), !map_map. cbn [fst snd]. rewrite <- !flat_map_concat_map.
    split; [|f_equal]; apply flat_map_ext'; apply Forall_forall; intros c I; now apply IH.
  - apply IH.
  - auto.
Qed.
Lemma root_items_shape : forall g r, (forall t key, map fst (g key (shape t)) = map fst (g key t)) -> map fst (items_of g (root_shape r)) = map (@fst (list string) string) (items_of g r).
Proof.
  intros g r H. unfold items_of, root_shape. rewrite (flat_map_concat_map _ (map _ r)), map_map. rewrite <- flat_map_concat_map. rewrite !map_flat_map. apply flat_map_ext', Forall_forall. intros m _.
  cbn [mname mtypes]. rewrite (flat_map_concat_map _ (map _ (mtypes m))), map_map. cbn [fst snd]. rewrite <- flat_map_concat_map. rewrite !map_flat_map. apply flat_map_ext', Forall_forall. intros a _. apply H.
Qed.
Lemma pair_ext : forall (l l' : list (list string * string)), map fst l = map fst l' -> map snd l = map snd l' -> l = l'.
Proof. induction l as [|[a b] l IH]; intros [|[c d] l'] H K; cbn in *; try discriminate; [reflexivity|]. f_equal; [congruence|]. apply IH; congruence. Qed.
Lemma same_items : forall r r', root_shape r' = root_shape r -> names_of enum_names r' = names_of enum_names r -> items_of enum_items r' = items_of enum_items r.
Proof.
  intros r r' S N. apply pair_ext; [|now rewrite !names_items].
  rewrite <- (root_items_shape enum_items r') by apply items_shape. rewrite S. apply root_items_shape. apply items_shape.
Qed.
Lemma same_items_c : forall r r', root_shape r' = root_shape r -> names_of choice_names r' = names_of choice_names r -> items_of choice_items r' = items_of choice_items r.
Proof.
  intros r r' S N. apply pair_ext; [|now rewrite !names_items_c].
  rewrite <- (root_items_shape choice_items r') by apply items_shape. rewrite S. apply root_items_shape. apply items_shape.
Qed.
Lemma work_prefixed : forall n r r', DoWork SelectiveEnumerants n (initial_root r) = Some (Done r') ->
  Forall2 only_prefixed (items_of enum_items (initial_root r)) (items_of enum_items r') /\
  Forall2 only_prefixed (items_of choice_items (initial_root r)) (items_of choice_items r').
Proof.
  intros n r r' H. unfold DoWork in H. destruct (run (handleEnumChoices SelectiveEnumerants) n (initial_root r)) as [[r1|]|] eqn:E; try discriminate.
  pose proof (choices_done _ _ _ _ E) as (_ & A2 & A3 & _). pose proof (enums_done _ _ _ _ H) as (_ & B2 & B3 & _). split.
  - rewrite <- (same_items _ _ A2 A3). eapply enums_prefixed. exact H.
  - rewrite (same_items_c _ _ B2 B3). eapply choices_prefixed; [exact E|]. apply initial_names, initial_choice.
Qed.
