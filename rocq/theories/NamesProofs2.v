(** Proofs for C65: one pass over the tree. *)
From Verif Require Import Names NamesSpec NamesProofs.
From Coq Require Import String Ascii List Bool Arith Lia Permutation.
Import ListNotations.
Local Open Scope string_scope.
Local Open Scope list_scope.

Lemma map_flat_map : forall (A B C : Type) (f : A -> list B) (g : B -> C) l, map g (flat_map f l) = flat_map (fun x => map g (f x)) l.
Proof. induction l as [|x l IH]; cbn; [reflexivity|]. now rewrite map_app, IH. Qed.
Lemma flat_map_ext' : forall (A B : Type) (f g : A -> list B) l, Forall (fun x => f x = g x) l -> flat_map f l = flat_map g l.
Proof. intros A B f g l H. induction H as [|x l E H IH]; cbn; [reflexivity|]. now rewrite E, IH. Qed.
Lemma enum_names_items : forall t key, map snd (enum_items key t) = enum_names t.
Proof.
  intros t. induction t as [items|l IH|l IH|t IH|] using nty_rect'; intros key; cbn [enum_items enum_names].
  - rewrite map_map. reflexivity.
  - rewrite map_flat_map. apply flat_map_ext'. apply Forall_forall. intros c I. rewrite Forall_forall in IH. now apply IH.
  - rewrite map_flat_map. apply flat_map_ext'. apply Forall_forall. intros c I. rewrite Forall_forall in IH. now apply IH.
  - apply IH.
  - reflexivity.
Qed.
Lemma choice_names_items : forall t key, map snd (choice_items key t) = choice_names t.
Proof.
  intros t. induction t as [items|l IH|l IH|t IH|] using nty_rect'; intros key; cbn [choice_items choice_names].
  - reflexivity.
  - rewrite map_flat_map. apply flat_map_ext'. apply Forall_forall. intros c I. rewrite Forall_forall in IH. now apply IH.
  - rewrite map_app, map_map, map_flat_map. f_equal. apply flat_map_ext'. apply Forall_forall. intros c I. rewrite Forall_forall in IH. now apply IH.
  - apply IH.
  - reflexivity.
Qed.

Definition stepE (dup : list string) (a b : list string * string) : Prop :=
  fst a = fst b /\ new_name String.eqb dup (fst a) (snd a) = Some (snd b).
Definition stepC (dup : list string) (a b : list string * string) : Prop :=
  fst a = fst b /\ exists q, new_name icompare dup (fst a) (snd a) = Some q /\ snd b = ToC q.
Ltac optinv H := apply option_map_some in H; let x := fresh "x" in let E := fresh "E" in destruct H as (x & E & ->).
Lemma enum_step : forall dup t key t', enum_type SelectiveEnumerants dup key t = Some t' ->
  Forall2 (stepE dup) (enum_items key t) (enum_items key t').
Proof.
  intros dup t. induction t as [items|l IH|l IH|t IH|] using nty_rect'; intros key t' H; cbn [enum_type] in H.
  - destruct (omap (copyItem dup key) items) as [c|] eqn:E; [|discriminate]. assert (t' = NEnum c) by congruence. subst. apply omap_some in E.
    cbn [enum_items]. apply (Forall2_map_l _ _ _ _ _ _ _ _ _ _ E). intros a b _ Q. unfold copyItem in Q. optinv Q. split; [reflexivity|exact E0].
  - optinv H. apply omap_some in E. cbn [enum_items]. apply (Forall2_flat_map _ _ _ _ _ _ _ _ _ _ E). intros a b I Q. optinv Q. cbn [fst snd].
    rewrite Forall_forall in IH. now apply IH.
  - optinv H. apply omap_some in E. cbn [enum_items]. apply (Forall2_flat_map _ _ _ _ _ _ _ _ _ _ E). intros a b I Q. optinv Q. cbn [fst snd].
    rewrite Forall_forall in IH. now apply IH.
  - optinv H. cbn [enum_items]. now apply IH.
  - assert (t' = NOther) by congruence. subst. constructor.
Qed.
Lemma choice_step : forall dup t key t', choice_type SelectiveEnumerants dup key t = Some t' ->
  Forall2 (stepC dup) (choice_items key t) (choice_items key t').
Proof.
  intros dup t. induction t as [items|l IH|l IH|t IH|] using nty_rect'; intros key t' H; cbn [choice_type] in H.
  - assert (t' = NEnum items) by congruence. subst. constructor.
  - optinv H. apply omap_some in E. cbn [choice_items]. apply (Forall2_flat_map _ _ _ _ _ _ _ _ _ _ E). intros a b I Q. optinv Q. cbn [fst snd].
    rewrite Forall_forall in IH. now apply IH.
  - match type of H with match ?o with _ => _ end = _ => destruct o as [l'|] eqn:E; [|discriminate] end.
    assert (t' = NChoice l') by congruence. subst. apply omap_some in E. cbn [choice_items]. apply Forall2_app.
    + apply (Forall2_map_l _ _ _ _ _ _ _ _ _ _ E). intros [[n p] ty] b _ Q. destruct (choice_type _ _ _ ty); [|discriminate].
      destruct (new_name icompare dup key p) as [q|] eqn:N; [|discriminate]. assert (b = (n, ToC q, n0)) by congruence. subst. split; [reflexivity|].
      exists q. split; [exact N|reflexivity].
    + apply (Forall2_flat_map _ _ _ _ _ _ _ _ _ _ E). intros [[n p] ty] b I Q. destruct (choice_type SelectiveEnumerants dup (key ++ [n]) ty) as [ty'|] eqn:C; [|discriminate].
      destruct (new_name icompare dup key p) as [q|] eqn:N; [|discriminate]. assert (b = (n, ToC q, ty')) by congruence. subst. cbn [fst snd].
      rewrite Forall_forall in IH. exact (IH _ I _ _ C).
  - optinv H. cbn [choice_items]. now apply IH.
  - assert (t' = NOther) by congruence. subst. constructor.
Qed.

(** What both policies keep. *)
Definition cleans (l : list string) : Prop := Forall (fun s => clean s = true) l.
Lemma newPrefix_in : forall key name p, newPrefix key name = Some p -> exists k, In k key /\ p = ToC k /\ contains p name = false.
Proof.
  intros key name p H. unfold newPrefix in H. apply find_some in H as [I N]. apply in_map_iff in I as (k & <- & I). apply in_rev in I.
  exists k. repeat split; [exact I|now apply negb_true_iff].
Qed.
Lemma new_name_clean : forall f dup key name q, new_name f dup key name = Some q -> clean name = true -> clean q = true.
Proof.
  intros f dup key name q H C. unfold new_name in H. destruct (existsb _ _); [|congruence]. optinv H.
  apply newPrefix_in in E as (k & _ & -> & _). rewrite !clean_app, ToC_clean, C. reflexivity.
Qed.
Lemma longest_in : forall l p, longest l = Some p -> In p l.
Proof.
  intros [|x l] p H; [discriminate|]. cbn [longest] in H. assert (E : p = fold_left (fun m y => if (String.length m <? String.length y)%nat then y else m) l x) by congruence.
  clear H. revert x p E. induction l as [|y l IH]; intros x p E; cbn [fold_left] in E; [left; congruence|].
  specialize (IH _ _ E). destruct (String.length x <? String.length y)%nat; destruct IH as [->|I]; cbn; auto.
Qed.
Lemma flat_map_Forall2 : forall (A B C : Type) (f : A -> list C) (g : B -> list C) (Q : A -> B -> Prop) l l',
  Forall2 Q l l' -> (forall a b, In a l -> Q a b -> f a = g b) -> flat_map f l = flat_map g l'.
Proof.
  intros A B C f g Q l l' H. induction H as [|a b l l' q H IH]; intros K; cbn; [reflexivity|]. f_equal; [apply K; [now left|exact q]|].
  apply IH. intros. apply K; [now right|assumption].
Qed.
Lemma cleans_flat : forall (A B : Type) (f : A -> list string) (g : B -> list string) (Q : A -> B -> Prop) l l',
  Forall2 Q l l' -> (forall a b, In a l -> Q a b -> cleans (f a) -> cleans (g b)) -> cleans (flat_map f l) -> cleans (flat_map g l').
Proof.
  intros A B f g Q l l' H. induction H as [|a b l l' q H IH]; intros K C; cbn in *; [constructor|]. apply Forall_app in C as [C1 C2].
  apply Forall_app. split; [eapply K; [now left|exact q|exact C1]|]. apply IH; [|exact C2]. intros a0 b0 I Q0. apply K; [now right|exact Q0].
Qed.
Lemma cleans_map : forall (A B : Type) (f : A -> string) (g : B -> string) (Q : A -> B -> Prop) l l',
  Forall2 Q l l' -> (forall a b, In a l -> Q a b -> clean (f a) = true -> clean (g b) = true) -> cleans (map f l) -> cleans (map g l').
Proof.
  intros A B f g Q l l' H. induction H as [|a b l l' q H IH]; intros K C; cbn in *; [constructor|]. inversion C as [|? ? C1 C2]; subst.
  constructor; [eapply K; [now left|exact q|exact C1]|]. apply IH; [|exact C2]. intros a0 b0 I Q0. apply K; [now right|exact Q0].
Qed.
Lemma enum_keep : forall pol dup t key t', enum_type pol dup key t = Some t' ->
  shape t' = shape t /\ choice_names t' = choice_names t /\ (cleans (enum_names t) -> cleans (enum_names t')).
Proof.
  intros pol dup t. induction t as [items|l IH|l IH|t IH|] using nty_rect'; intros key t' H; cbn [enum_type] in H.
  - destruct (omap (copyItem dup key) items) as [c|] eqn:E; [|discriminate]. apply omap_some in E. destruct pol.
    + assert (t' = NEnum c) by congruence. subst. cbn [shape choice_names enum_names]. split; [|split; [reflexivity|]].
      * f_equal. symmetry. apply (Forall2_eq_map _ _ _ _ _ _ _ _ E). intros a b _ Q. unfold copyItem in Q. optinv Q. reflexivity.
      * apply (cleans_map _ _ _ _ _ _ _ E). intros a b _ Q. unfold copyItem in Q. optinv Q. cbn [snd]. intros. eapply new_name_clean; eassumption.
    + destruct (longest _) as [p|] eqn:L; [|discriminate]. assert (t' = NEnum (map (fun it => (fst it, (p ++ snd it)%string)) items)) by congruence.
      subst. cbn [shape choice_names enum_names]. split; [now rewrite map_map|split; [reflexivity|]]. intros C.
      assert (CP : clean p = true).
      { apply longest_in in L. apply in_map_iff in L as (it & <- & I). apply delete_clean.
        assert (cleans (map snd c)) as CC.
        { revert C. apply (cleans_map _ _ _ _ _ _ _ E). intros a b _ Q. unfold copyItem in Q. optinv Q. cbn [snd]. intros. eapply new_name_clean; eassumption. }
        unfold cleans in CC. rewrite Forall_forall in CC. apply CC. now apply in_map. }
      rewrite map_map. cbn [snd]. unfold cleans in *. rewrite Forall_forall in *. intros s I. apply in_map_iff in I as (it & <- & I).
      rewrite clean_app, CP. apply C. now apply in_map.
  - optinv H. apply omap_some in E. rewrite Forall_forall in IH. cbn [shape choice_names enum_names].
    assert (K : forall a b, In a l -> option_map (fun t => (fst a, t)) (enum_type pol dup (key ++ [fst a]) (snd a)) = Some b ->
      fst b = fst a /\ shape (snd b) = shape (snd a) /\ choice_names (snd b) = choice_names (snd a) /\ (cleans (enum_names (snd a)) -> cleans (enum_names (snd b)))).
    { intros a b I Q. optinv Q. cbn [fst snd]. split; [reflexivity|]. exact (IH _ I _ _ E0). }
    split; [f_equal; symmetry|split; [symmetry|]].
    + apply (Forall2_eq_map _ _ _ _ _ _ _ _ E). intros a b I Q. destruct (K _ _ I Q) as (A & B & _). congruence.
    + apply (flat_map_Forall2 _ _ _ _ _ _ _ _ E). intros a b I Q. destruct (K _ _ I Q) as (_ & _ & B & _). congruence.
    + apply (cleans_flat _ _ _ _ _ _ _ E). intros a b I Q. apply (K _ _ I Q).
  - optinv H. apply omap_some in E. rewrite Forall_forall in IH. cbn [shape choice_names enum_names].
    assert (K : forall a b, In a l -> option_map (fun t => (fst a, t)) (enum_type pol dup (key ++ [fst (fst a)]) (snd a)) = Some b ->
      fst b = fst a /\ shape (snd b) = shape (snd a) /\ choice_names (snd b) = choice_names (snd a) /\ (cleans (enum_names (snd a)) -> cleans (enum_names (snd b)))).
    { intros a b I Q. optinv Q. cbn [fst snd]. split; [reflexivity|]. exact (IH _ I _ _ E0). }
    split; [f_equal; symmetry|split; [f_equal; symmetry|]].
    + apply (Forall2_eq_map _ _ _ _ _ _ _ _ E). intros a b I Q. destruct (K _ _ I Q) as (A & B & _). congruence.
    + apply (Forall2_eq_map _ _ _ _ _ _ _ _ E). intros a b I Q. destruct (K _ _ I Q) as (A & _). congruence.
    + apply (flat_map_Forall2 _ _ _ _ _ _ _ _ E). intros a b I Q. destruct (K _ _ I Q) as (_ & _ & B & _). congruence.
    + apply (cleans_flat _ _ _ _ _ _ _ E). intros a b I Q. apply (K _ _ I Q).
  - optinv H. destruct (IH _ _ E) as (A & B & C). cbn [shape choice_names enum_names]. split; [congruence|split; [exact B|exact C]].
  - assert (t' = NOther) by congruence. subst. auto.
Qed.
Lemma choice_keep : forall pol dup t key t', choice_type pol dup key t = Some t' ->
  shape t' = shape t /\ enum_names t' = enum_names t /\ (cleans (choice_names t) -> cleans (choice_names t')).
Proof.
  intros pol dup t. induction t as [items|l IH|l IH|t IH|] using nty_rect'; intros key t' H; cbn [choice_type] in H.
  - assert (t' = NEnum items) by congruence. subst. auto.
  - optinv H. apply omap_some in E. rewrite Forall_forall in IH. cbn [shape choice_names enum_names].
    assert (K : forall a b, In a l -> option_map (fun t => (fst a, t)) (choice_type pol dup (key ++ [fst a]) (snd a)) = Some b ->
      fst b = fst a /\ shape (snd b) = shape (snd a) /\ enum_names (snd b) = enum_names (snd a) /\ (cleans (choice_names (snd a)) -> cleans (choice_names (snd b)))).
    { intros a b I Q. optinv Q. cbn [fst snd]. split; [reflexivity|]. exact (IH _ I _ _ E0). }
    split; [f_equal; symmetry|split; [symmetry|]].
    + apply (Forall2_eq_map _ _ _ _ _ _ _ _ E). intros a b I Q. destruct (K _ _ I Q) as (A & B & _). congruence.
    + apply (flat_map_Forall2 _ _ _ _ _ _ _ _ E). intros a b I Q. destruct (K _ _ I Q) as (_ & _ & B & _). congruence.
    + apply (cleans_flat _ _ _ _ _ _ _ E). intros a b I Q. apply (K _ _ I Q).
  - match type of H with match ?o with _ => _ end = _ => destruct o as [l'|] eqn:E; [|discriminate] end.
    apply omap_some in E. rewrite Forall_forall in IH.
    assert (K : forall a b, In a l -> (let '(n, p, ty) := a in
                    match choice_type pol dup (key ++ [n]) ty, new_name icompare dup key p with
                    | Some ty', Some p' => Some (n, ToC p', ty')
                    | _, _ => None
                    end) = Some b ->
      fst (fst b) = fst (fst a) /\ shape (snd b) = shape (snd a) /\ enum_names (snd b) = enum_names (snd a) /\ clean (snd (fst b)) = true /\
      (cleans (choice_names (snd a)) -> cleans (choice_names (snd b)))).
    { intros [[n p] ty] b I Q. destruct (choice_type pol dup (key ++ [n]) ty) as [ty'|] eqn:C; [|discriminate].
      destruct (new_name icompare dup key p) as [q|] eqn:N; [|discriminate]. assert (b = (n, ToC q, ty')) by congruence. subst. cbn [fst snd].
      destruct (IH _ I _ _ C) as (A & B & D). repeat split; try assumption. apply ToC_clean. }
    destruct pol.
    + assert (t' = NChoice l') by congruence. subst. cbn [shape choice_names enum_names]. split; [f_equal; symmetry|split; [symmetry|]].
      * apply (Forall2_eq_map _ _ _ _ _ _ _ _ E). intros a b I Q. destruct (K _ _ I Q) as (A & B & _). congruence.
      * apply (flat_map_Forall2 _ _ _ _ _ _ _ _ E). intros a b I Q. destruct (K _ _ I Q) as (_ & _ & B & _). congruence.
      * intros C. apply Forall_app in C as [C1 C2]. apply Forall_app. split.
        -- revert C1. apply (cleans_map _ _ _ _ _ _ _ E). intros a b I Q _. apply (K _ _ I Q).
        -- revert C2. apply (cleans_flat _ _ _ _ _ _ _ E). intros a b I Q. apply (K _ _ I Q).
    + destruct (longest _) as [p|] eqn:L; [|discriminate].
      assert (t' = NChoice (map (fun c => (fst (fst c), (p ++ snd (fst c))%string, snd c)) l)) by congruence. subst. cbn [shape choice_names enum_names].
      assert (CP : clean p = true).
      { apply longest_in in L. apply in_map_iff in L as (it & <- & I). apply delete_clean.
        clear -E K I. induction E as [|a b l l' q E IHE]; [destruct I|]. destruct I as [<-|I].
        - apply (K _ _ (or_introl eq_refl) q).
        - apply IHE; [exact I|]. intros a0 b0 I0. apply K. now right. }
      rewrite !map_map. cbn [fst snd]. split; [reflexivity|]. rewrite !flat_map_concat_map, !map_map. cbn [snd]. split; [reflexivity|].
      intros C. apply Forall_app in C as [C1 C2]. apply Forall_app. split; [|exact C2].
      rewrite Forall_forall in *. intros s I. apply in_map_iff in I as (c & <- & I). rewrite clean_app, CP. apply C1. apply in_map_iff. exists c. auto.
  - optinv H. destruct (IH _ _ E) as (A & B & C). cbn [shape choice_names enum_names]. split; [congruence|split; [exact B|exact C]].
  - assert (t' = NOther) by congruence. subst. auto.
Qed.

(** * The whole grammar *)
Lemma clone_inv : forall f r r', clone f r = Some r' ->
  Forall2 (fun m m' => mname m' = mname m /\ mvalues m' = mvalues m /\
    Forall2 (fun a b => fst b = fst a /\ f [mname m; fst a] (snd a) = Some (snd b)) (mtypes m) (mtypes m')) r r'.
Proof.
  intros f r r' H. unfold clone in H. apply omap_some in H. induction H as [|m m' r r' Q H IH]; constructor; [|exact IH].
  optinv Q. cbn [mname mvalues mtypes]. split; [reflexivity|]. split; [reflexivity|]. apply omap_some in E. clear -E.
  induction E as [|a b l l' Q E IH]; constructor; [|exact IH]. optinv Q. cbn. auto.
Qed.
Lemma clone_items : forall R f (g : list string -> nty -> list (list string * string)) r r', clone f r = Some r' ->
  (forall key t t', f key t = Some t' -> Forall2 R (g key t) (g key t')) -> Forall2 R (items_of g r) (items_of g r').
Proof.
  intros R f g r r' H K. apply clone_inv in H. unfold items_of. apply (Forall2_flat_map _ _ _ _ _ _ _ _ _ _ H).
  intros m m' _ (N & _ & T). rewrite N. apply (Forall2_flat_map _ _ _ _ _ _ _ _ _ _ T). intros a b _ (F & E). rewrite F. now apply K.
Qed.
Lemma clone_names : forall f (g : nty -> list string) r r', clone f r = Some r' ->
  (forall key t t', f key t = Some t' -> g t' = g t) -> names_of g r' = names_of g r.
Proof.
  intros f g r r' H K. apply clone_inv in H. unfold names_of. symmetry. apply (flat_map_Forall2 _ _ _ _ _ _ _ _ H).
  intros m m' _ (_ & _ & T). apply (flat_map_Forall2 _ _ _ _ _ _ _ _ T). intros a b _ (F & E). symmetry. eapply K. exact E.
Qed.
Lemma clone_cleans : forall f (g : nty -> list string) r r', clone f r = Some r' ->
  (forall key t t', f key t = Some t' -> cleans (g t) -> cleans (g t')) -> cleans (names_of g r) -> cleans (names_of g r').
Proof.
  intros f g r r' H K. apply clone_inv in H. unfold names_of. apply (cleans_flat _ _ _ _ _ _ _ H).
  intros m m' _ (_ & _ & T). apply (cleans_flat _ _ _ _ _ _ _ T). intros a b _ (F & E). eapply K. exact E.
Qed.
Lemma clone_shape : forall f r r', clone f r = Some r' -> (forall key t t', f key t = Some t' -> shape t' = shape t) -> root_shape r' = root_shape r.
Proof.
  intros f r r' H K. apply clone_inv in H. unfold root_shape. symmetry. apply (Forall2_eq_map _ _ _ _ _ _ _ _ H).
  intros m m' _ (N & V & T). rewrite N, V. f_equal. apply (Forall2_eq_map _ _ _ _ _ _ _ _ T). intros a b _ (F & E). rewrite F. f_equal. symmetry. eapply K. exact E.
Qed.
Lemma clone_values : forall f r r', clone f r = Some r' -> flat_map mvalues r' = flat_map mvalues r.
Proof.
  intros f r r' H. apply clone_inv in H. symmetry. apply (flat_map_Forall2 _ _ _ _ _ _ _ _ H). intros m m' _ (_ & V & _). congruence.
Qed.
Lemma names_items : forall r, map snd (items_of enum_items r) = names_of enum_names r.
Proof.
  intros r. unfold items_of, names_of. rewrite map_flat_map. apply flat_map_ext'. apply Forall_forall. intros m _.
  rewrite map_flat_map. apply flat_map_ext'. apply Forall_forall. intros a _. apply enum_names_items.
Qed.
Lemma names_items_c : forall r, map snd (items_of choice_items r) = names_of choice_names r.
Proof.
  intros r. unfold items_of, names_of. rewrite map_flat_map. apply flat_map_ext'. apply Forall_forall. intros m _.
  rewrite map_flat_map. apply flat_map_ext'. apply Forall_forall. intros a _. apply choice_names_items.
Qed.
Lemma double_perm : forall r, Permutation (doubleEnumNames0 r) (names_of enum_names r ++ flat_map mvalues r).
Proof.
  intros r. unfold doubleEnumNames0, names_of. induction r as [|m r IH]; cbn; [constructor|].
  rewrite <- !app_assoc. apply Permutation_app_head. eapply perm_trans; [apply Permutation_app_head, IH|]. rewrite !app_assoc.
  apply Permutation_app_tail. apply Permutation_app_comm.
Qed.
