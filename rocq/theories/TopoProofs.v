(** The order of definitions. *)
From Verif Require Import Base Topo TopoSpec.
From Coq Require Import Permutation.

Section Sort.
Context {A : Type} (cmp : A -> A -> bool).
Hypothesis cmp_eq : forall x y, cmp x y = true <-> x = y.
Notation aux := (DoTopologicalSort3_aux cmp).

Definition dep2 (h : A) (dep : list (A * list A)) := map (fun p => (fst p, filter (fun x => negb (cmp x h)) (snd p))) dep.
Lemma perm_split : forall (dep : list (A * list A)),
  Permutation (map fst dep) (map fst (filter (fun p => isEmpty (snd p)) dep) ++ map fst (filter (fun p => negb (isEmpty (snd p))) dep)).
Proof.
  induction dep as [|[n l] dep IH]; [constructor|]. cbn [filter snd]. destruct (isEmpty l); cbn [negb map fst].
  - cbn [app]. constructor. exact IH.
  - rewrite <- Permutation_middle. constructor. exact IH.
Qed.
Lemma fst_dep2 : forall h dep, map fst (dep2 h dep) = map fst dep.
Proof. intros. unfold dep2. rewrite map_map. reflexivity. Qed.

(** Enough fuel *)
Lemma fuel_ok : forall fuel ind dep rt, (length ind + length dep <= fuel)%nat -> exists r, aux fuel ind dep rt = Some r.
Proof.
  induction fuel as [|fuel IH]; intros ind dep rt H; destruct ind as [|h t]; cbn [DoTopologicalSort3_aux length] in *; eauto; try lia.
  apply IH. change (map (fun p => (fst p, filter (fun x => negb (cmp x h)) (snd p))) dep) with (dep2 h dep).
  pose proof (Permutation_length (perm_split (dep2 h dep))) as P. rewrite fst_dep2 in P.
  rewrite !app_length, !map_length in *. lia.
Qed.

(** Nothing is lost. *)
Lemma aux_perm : forall fuel ind dep rt out rest, aux fuel ind dep rt = Some (out, rest) ->
  exists more, out = rev rt ++ more /\ Permutation (ind ++ map fst dep) (more ++ map fst rest).
Proof.
  induction fuel as [|fuel IH]; intros ind dep rt out rest H; destruct ind as [|h t]; cbn [DoTopologicalSort3_aux] in H; try discriminate.
  - injection H as <- <-. exists []. rewrite app_nil_r. auto.
  - injection H as <- <-. exists []. rewrite app_nil_r. auto.
  - change (map (fun p => (fst p, filter (fun x => negb (cmp x h)) (snd p))) dep) with (dep2 h dep) in H. cbv zeta in H.
    destruct (IH _ _ _ _ _ H) as (more & E & P). exists (h :: more). split.
    + rewrite E. cbn [rev]. rewrite <- app_assoc. reflexivity.
    + cbn [app]. constructor. rewrite <- P, <- (fst_dep2 h dep), (perm_split (dep2 h dep)).
      rewrite app_assoc. apply Permutation_app_tail. apply Permutation_app_comm.
Qed.

(** [l] without the nodes already written *)
Definition notin (e : list A) (x : A) : bool := negb (existsb (fun y => cmp x y) e).
Lemma notin_In : forall e x, notin e x = false <-> In x e.
Proof.
  intros. unfold notin. rewrite negb_false_iff, existsb_exists. split.
  - intros (y & I & E). apply cmp_eq in E. subst. exact I.
  - intros I. exists x. split; [exact I|]. apply cmp_eq. reflexivity.
Qed.
Lemma filter_step : forall e h l, filter (fun x => negb (cmp x h)) (filter (notin e) l) = filter (notin (e ++ [h])) l.
Proof.
  intros e h l. induction l as [|x l IH]; [reflexivity|]. cbn [filter].
  assert (E : notin (e ++ [h]) x = notin e x && negb (cmp x h)).
  { unfold notin. rewrite existsb_app. cbn [existsb]. rewrite orb_false_r, negb_orb. reflexivity. }
  rewrite E. destruct (notin e x); cbn [andb filter]; [|exact IH]. destruct (cmp x h); cbn [negb filter]; rewrite IH; reflexivity.
Qed.
Lemma filter_nil : forall e l, filter (notin e) l = [] <-> incl l e.
Proof.
  intros e l. induction l as [|x l IH]; [split; [intros _ y []|reflexivity]|]. cbn [filter].
  destruct (notin e x) eqn:E.
  - split; [discriminate|]. intros H. specialize (H x (or_introl eq_refl)). apply notin_In in H. congruence.
  - apply notin_In in E. rewrite IH. split; intros H y Hy; [destruct Hy as [<-|Hy]; auto|apply H; right; exact Hy].
Qed.

(** One occurrence of n in [out] comes after all of [l]. *)
Lemma after_app : forall (out m : list A) n l, after out n l -> after (out ++ m) n l.
Proof. intros out m n l (a & b & -> & H). exists a, (b ++ m). rewrite <- app_assoc. auto. Qed.
Definition inv (e ind : list A) (dep : list (A * list A)) (n : A) (l : list A) : Prop :=
  after e n l \/ In n ind /\ incl l e \/ In (n, filter (notin e) l) dep.
Lemma aux_inv : forall fuel ind dep rt out rest n l, aux fuel ind dep rt = Some (out, rest) -> inv (rev rt) ind dep n l ->
  after out n l \/ In (n, filter (notin out) l) rest.
Proof.
  induction fuel as [|fuel IH]; intros ind dep rt out rest n l H I; destruct ind as [|h t]; cbn [DoTopologicalSort3_aux] in H; try discriminate.
  - injection H as <- <-. destruct I as [I|[[[] _]|I]]; auto.
  - injection H as <- <-. destruct I as [I|[[[] _]|I]]; auto.
  - change (map (fun p => (fst p, filter (fun x => negb (cmp x h)) (snd p))) dep) with (dep2 h dep) in H. cbv zeta in H.
    apply (IH _ _ _ _ _ _ _ H). cbn [rev]. destruct I as [I|[[[->|I] J]|I]].
    + left. apply after_app. exact I.
    + left. exists (rev rt), []. auto.
    + right. left. split; [apply in_or_app; right; exact I|]. intros x Hx. apply in_or_app. left. auto.
    + right. assert (K : In (n, filter (notin (rev rt ++ [h])) l) (dep2 h dep)).
      { rewrite <- filter_step. unfold dep2. apply in_map_iff. exists (n, filter (notin (rev rt)) l). auto. }
      destruct (isEmpty (filter (notin (rev rt ++ [h])) l)) eqn:E.
      * left. split.
        -- apply in_or_app. left. apply in_map_iff. exists (n, filter (notin (rev rt ++ [h])) l). split; [reflexivity|].
           apply filter_In. auto.
        -- apply filter_nil. destruct (filter (notin (rev rt ++ [h])) l); [reflexivity|discriminate].
      * right. apply filter_In. split; [exact K|]. cbn [snd]. rewrite E. reflexivity.
Qed.
(** What remains comes from the given nodes and lacks something. *)
Lemma aux_rest : forall fuel ind dep rt out rest, aux fuel ind dep rt = Some (out, rest) ->
  (forall n l, In (n, l) dep -> l <> []) -> forall n l, In (n, l) rest -> l <> [].
Proof.
  induction fuel as [|fuel IH]; intros ind dep rt out rest H HD n l I; destruct ind as [|h t]; cbn [DoTopologicalSort3_aux] in H; try discriminate.
  - injection H as _ <-. eauto.
  - injection H as _ <-. eauto.
  - eapply (IH _ _ _ _ _ H); [|exact I]. intros m k J. apply filter_In in J. destruct J as [_ J]. cbn [snd] in J. destruct k; discriminate.
Qed.
Lemma aux_from : forall fuel ind dep rt out rest n k, aux fuel ind dep rt = Some (out, rest) -> In (n, k) rest ->
  exists l, In (n, l) dep /\ exists more, out = rev rt ++ more /\ k = filter (notin more) l.
Proof.
  induction fuel as [|fuel IH]; intros ind dep rt out rest n k H I; destruct ind as [|h t]; cbn [DoTopologicalSort3_aux] in H; try discriminate.
  1,2: injection H as <- <-; exists k; split; [exact I|]; exists []; rewrite app_nil_r; split; [reflexivity|];
    clear; induction k as [|x k IH]; [reflexivity|]; cbn [filter]; unfold notin at 1; cbn [existsb negb]; congruence.
  change (map (fun p => (fst p, filter (fun x => negb (cmp x h)) (snd p))) dep) with (dep2 h dep) in H. cbv zeta in H.
  destruct (IH _ _ _ _ _ _ _ H I) as (l & J & more & E & K).
  apply filter_In in J. destruct J as [J _]. unfold dep2 in J. apply in_map_iff in J. destruct J as ([m l0] & J & J2).
  cbn [fst snd] in J. injection J as <- <-. exists l0. split; [exact J2|]. exists (h :: more). split.
  - rewrite E. cbn [rev]. rewrite <- app_assoc. reflexivity.
  - rewrite K. clear - A. induction l0 as [|x l IHl]; [reflexivity|]. cbn [filter].
    assert (E : notin (h :: more) x = negb (cmp x h) && notin more x).
    { unfold notin. cbn [existsb]. rewrite negb_orb. reflexivity. }
    rewrite E. destruct (cmp x h); cbn [negb andb filter]; [exact IHl|]. destruct (notin more x); rewrite IHl; reflexivity.
Qed.

(** ** The sort *)
Notation sort := (DoTopologicalSort2 cmp).
Lemma total : forall ind dep, exists r, sort ind dep = Some r.
Proof.
  intros ind dep. unfold DoTopologicalSort2. destruct (fuel_ok (length ind + length dep) ind dep [] (le_n _)) as [[o [|x r]] ->]; eauto.
Qed.
Lemma sort_inl : forall ind dep out, sort ind dep = Some (inl out) ->
  aux (length ind + length dep) ind dep [] = Some (out, []).
Proof.
  intros ind dep out H. unfold DoTopologicalSort2 in H. destruct (aux _ ind dep []) as [[o [|x r]]|]; try discriminate. congruence.
Qed.
Lemma sort_inr : forall ind dep rest, sort ind dep = Some (inr rest) ->
  exists out, aux (length ind + length dep) ind dep [] = Some (out, rest) /\ rest <> [].
Proof.
  intros ind dep rest H. unfold DoTopologicalSort2 in H. destruct (aux _ ind dep []) as [[o [|x r]]|]; try discriminate.
  exists o. split; [congruence|]. injection H as <-. discriminate.
Qed.
Lemma init_inv : forall ind dep n l, In (n, l) dep -> inv (rev []) ind dep n l.
Proof.
  intros ind dep n l H. right. right. cbn [rev]. replace (filter (notin []) l) with l; [exact H|].
  clear. induction l as [|x l IH]; [reflexivity|]. cbn [filter]. unfold notin at 1. cbn [existsb negb]. congruence.
Qed.
Lemma sorted : forall ind dep out, sort ind dep = Some (inl out) ->
  Permutation (ind ++ map fst dep) out /\ forall n l, In (n, l) dep -> after out n l.
Proof.
  intros ind dep out H. apply sort_inl in H. split.
  - destruct (aux_perm _ _ _ _ _ _ H) as (more & -> & P). cbn [rev app map] in *. rewrite app_nil_r in P. exact P.
  - intros n l I. destruct (aux_inv _ _ _ _ _ _ n l H (init_inv ind dep n l I)) as [P|[]]. exact P.
Qed.
Lemma reported : forall ind dep rest, sort ind dep = Some (inr rest) -> (forall n l, In (n, l) dep -> l <> []) ->
  rest <> [] /\ forall n k, In (n, k) rest -> k <> [] /\ (exists l, In (n, l) dep /\ incl k l) /\
    forall x, In x k -> In x (map fst rest) \/ ~ In x (ind ++ map fst dep).
Proof.
  intros ind dep rest H HD. apply sort_inr in H. destruct H as (out & H & NE). split; [exact NE|].
  intros n k I. split; [eapply aux_rest; eauto|].
  destruct (aux_from _ _ _ _ _ _ _ _ H I) as (l & J & more & E & ->). cbn [rev app] in E. subst more. split.
  - exists l. split; [exact J|]. intros x Hx. apply filter_In in Hx. tauto.
  - intros x Hx. apply filter_In in Hx. destruct Hx as [_ Hx].
    destruct (aux_perm _ _ _ _ _ _ H) as (more & E & P). cbn [rev app] in E. subst more.
    assert (NI : ~ In x out) by (intros C; apply notin_In in C; congruence).
    destruct (in_dec (fun a b => match cmp a b as c return cmp a b = c -> {a = b} + {a <> b} with
                                 | true => fun e => left (proj1 (cmp_eq a b) e)
                                 | false => fun e => right (fun g => eq_ind (cmp a b) (fun c => c = true -> False)
                                     (fun q => ltac:(congruence)) _ eq_refl (proj2 (cmp_eq a b) g)) end eq_refl) x (map fst rest)) as [Y|N]; [left; exact Y|right].
    intros C. apply (Permutation_in _ P) in C. apply in_app_or in C. tauto.
Qed.
Lemma unique : forall (n : A) a b a' b', NoDup (a ++ n :: b) -> a ++ n :: b = a' ++ n :: b' -> a' = a.
Proof.
  intros n a. induction a as [|y a IH]; intros b a' b' NO E'.
  - destruct a' as [|z a']; [reflexivity|]. injection E' as -> E'. exfalso. apply NoDup_remove_2 in NO. apply NO.
    cbn [app]. rewrite E'. apply in_or_app. right. left. reflexivity.
  - destruct a' as [|z a'].
    + injection E' as -> E'. exfalso. inversion NO; subst. apply H1. apply in_or_app. right. left. reflexivity.
    + injection E' as -> E'. inversion NO; subst. f_equal. eapply IH; eauto.
Qed.
(** When an order exists one is found. *)
Lemma complete : forall ind dep ord, (forall n l, In (n, l) dep -> l <> []) -> NoDup (ind ++ map fst dep) ->
  Permutation (ind ++ map fst dep) ord -> (forall n l, In (n, l) dep -> after ord n l) -> exists out, sort ind dep = Some (inl out).
Proof.
  intros ind dep ord HD ND P HO. destruct (total ind dep) as [[out|rest] H]; [eauto|exfalso].
  destruct (reported ind dep rest H HD) as [NE R].
  assert (NO : NoDup ord) by (eapply Permutation_NoDup; eauto).
  assert (G : forall m n k a b, In (n, k) rest -> ord = a ++ n :: b -> (length a <= m)%nat -> False).
  { induction m as [|m IH]; intros n k a b I E L.
    - destruct (R n k I) as (K & (l & J & JI) & _). destruct (HO n l J) as (a' & b' & E' & S).
      destruct k as [|x k]; [congruence|]. specialize (S x (JI x (or_introl eq_refl))).
      assert (a' = a) by (rewrite E in E', NO; eapply unique; eauto).
      subst. destruct a; [destruct S|cbn in L; lia].
    - destruct (R n k I) as (K & (l & J & JI) & X). destruct (HO n l J) as (a' & b' & E' & S).
      destruct k as [|x k]; [congruence|]. assert (Sx := S x (JI x (or_introl eq_refl))).
      assert (a' = a) by (rewrite E in E', NO; eapply unique; eauto).
      subst a'. destruct (X x (or_introl eq_refl)) as [Y|Y].
      + apply in_map_iff in Y. destruct Y as ([x' kx] & Ex & Y). cbn [fst] in Ex. subst x'.
        apply in_split in Sx. destruct Sx as (a1 & a2 & ->).
        eapply (IH x kx a1 (a2 ++ n :: b)); [exact Y| |].
        * rewrite E. rewrite <- app_assoc. reflexivity.
        * rewrite app_length in L. cbn [length] in L. lia.
      + apply Y. apply (Permutation_in x (Permutation_sym P)). rewrite E. apply in_or_app. left. exact Sx. }
  destruct rest as [|[n k] rest]; [congruence|].
  destruct (R n k (or_introl eq_refl)) as (_ & (l & J & _) & _). destruct (HO n l J) as (a & b & E & _).
  apply (G (length a) n k a b); auto. left. reflexivity.
Qed.

(** ** Nodes and types *)
Lemma nodes_perm : forall imports (nodes : list (A * list A)),
  Permutation ((imports ++ map fst (filter (fun p => isEmpty (snd p)) nodes)) ++ map fst (filter (fun p => negb (isEmpty (snd p))) nodes))
    (imports ++ map fst nodes).
Proof. intros. rewrite <- app_assoc. apply Permutation_app_head. symmetry. apply perm_split. Qed.
Lemma nodes_nonempty : forall (nodes : list (A * list A)) n l, In (n, l) (filter (fun p => negb (isEmpty (snd p))) nodes) -> l <> [].
Proof. intros nodes n l H. apply filter_In in H. destruct H as [_ H]. destruct l; discriminate. Qed.
Lemma nodes_total : forall imports nodes, exists r, sort_nodes cmp imports nodes = Some r.
Proof. intros. apply total. Qed.
Lemma nodes_sorted : forall imports nodes out, sort_nodes cmp imports nodes = Some (inl out) ->
  Permutation (imports ++ map fst nodes) out /\ forall n l, In (n, l) nodes -> after out n l.
Proof.
  intros imports nodes out H. apply sorted in H. destruct H as [P H]. rewrite nodes_perm in P. split; [exact P|].
  intros n l I. destruct l as [|x l].
  - assert (J : In n out). { apply (Permutation_in n P). apply in_or_app. right. apply (in_map fst) in I. exact I. }
    apply in_split in J. destruct J as (a & b & ->). exists a, b. split; [reflexivity|intros y []].
  - apply H. apply filter_In. auto.
Qed.
Lemma nodes_reported : forall imports nodes rest, sort_nodes cmp imports nodes = Some (inr rest) ->
  rest <> [] /\ forall n k, In (n, k) rest -> k <> [] /\ (exists l, In (n, l) nodes /\ incl k l) /\
    forall x, In x k -> In x (map fst rest) \/ ~ In x (imports ++ map fst nodes).
Proof.
  intros imports nodes rest H. apply reported in H; [|apply nodes_nonempty]. destruct H as [NE H]. split; [exact NE|].
  intros n k I. destruct (H n k I) as (K & (l & J & JI) & X). split; [exact K|]. split.
  - apply filter_In in J. exists l. tauto.
  - intros x Hx. destruct (X x Hx) as [Y|Y]; [auto|right]. intros C. apply Y.
    apply (Permutation_in x (Permutation_sym (nodes_perm imports nodes))). exact C.
Qed.
Lemma nodes_complete : forall imports nodes ord, NoDup (imports ++ map fst nodes) ->
  Permutation (imports ++ map fst nodes) ord -> (forall n l, In (n, l) nodes -> after ord n l) ->
  exists out, sort_nodes cmp imports nodes = Some (inl out).
Proof.
  intros imports nodes ord ND P HO. apply (complete _ _ ord).
  - apply nodes_nonempty.
  - eapply Permutation_NoDup; [symmetry; apply nodes_perm|exact ND].
  - rewrite nodes_perm. exact P.
  - intros n l I. apply filter_In in I. apply HO. tauto.
Qed.
Lemma perm_filter : forall (f : A -> bool) l m, Permutation l m -> Permutation (filter f l) (filter f m).
Proof.
  intros f l m P. induction P; cbn [filter].
  - constructor.
  - destruct (f x); [constructor|]; exact IHP.
  - destruct (f x), (f y); try apply Permutation_refl. apply perm_swap.
  - etransitivity; eauto.
Qed.
Lemma known_In : forall names x, existsb (fun y => cmp x y) names = true <-> In x names.
Proof.
  intros. rewrite existsb_exists. split.
  - intros (y & I & E). apply cmp_eq in E. subst. exact I.
  - intros I. exists x. split; [exact I|]. apply cmp_eq. reflexivity.
Qed.
Lemma filter_all : forall (f : A -> bool) l, (forall x, In x l -> f x = true) -> filter f l = l.
Proof. intros f l. induction l as [|x l IH]; intros H; [reflexivity|]. cbn [filter]. rewrite (H x (or_introl eq_refl)). f_equal. apply IH. intros; apply H; right; assumption. Qed.
Lemma filter_none : forall (f : A -> bool) l, (forall x, In x l -> f x = false) -> filter f l = [].
Proof. intros f l. induction l as [|x l IH]; intros H; [reflexivity|]. cbn [filter]. rewrite (H x (or_introl eq_refl)). apply IH. intros; apply H; right; assumption. Qed.

Lemma deps : forall (t : dtype A) r, mentions t r -> In r (getTypeDependencies2 t).
Proof.
  intros t r H. induction H; cbn [getTypeDependencies2]; try (apply in_or_app; auto); auto.
  - right. apply in_flat_map. eauto.
  - right. assumption.
  - left. reflexivity.
Qed.
Definition names (tas : list (A * dtype A)) := map fst tas.
Lemma header : forall imports tas out, NoDup (imports ++ names tas) -> file_order cmp imports tas = Some (inl out) ->
  Permutation (names tas) out /\
  forall a n b t, out = a ++ n :: b -> In (n, t) tas -> forall r, mentions t r -> In r imports \/ In r a.
Proof.
  intros imports tas out ND H. unfold file_order in H. destruct (sortTypes cmp imports tas) as [[o|o]|] eqn:S; try discriminate.
  apply (f_equal (fun v => match v with Some (inl x) => x | _ => [] end)) in H. cbv beta iota in H. subst out.
  apply nodes_sorted in S. destruct S as [P S]. rewrite map_map in P. cbn [fst] in P. fold (names tas) in *.
  change (map (fun x : A * dtype A => fst x) tas) with (names tas) in *.
  set (f := fun n => existsb (fun y => cmp n y) (names tas)).
  assert (NI : forall x, In x imports -> f x = false).
  { intros x Hx. destruct (f x) eqn:E; [exfalso|reflexivity]. apply known_In in E.
    clear - ND Hx E. induction imports as [|y i IH]; [destruct Hx|]. inversion ND; subst. destruct Hx as [->|Hx]; [|auto].
    apply H1. apply in_or_app. auto. }
  assert (PF : Permutation (names tas) (filter f o)).
  { apply (perm_filter f) in P. rewrite filter_app, (filter_none f imports NI) in P. cbn [app] in P.
    rewrite filter_all in P; [exact P|]. intros x Hx. apply known_In. exact Hx. }
  split; [exact PF|]. intros a n b t E I r M.
  destruct (S n (getTypeDependencies2 t)) as (a' & b' & E' & L).
  { apply in_map_iff. exists (n, t). auto. }
  assert (fn : f n = true) by (apply known_In; apply in_map_iff; exists (n, t); auto).
  assert (a = filter f a').
  { symmetry. apply (unique n a b _ (filter f b')).
    - rewrite <- E. eapply Permutation_NoDup; [exact PF|]. clear - ND. induction imports; [exact ND|]. inversion ND; auto.
    - rewrite <- E, E', filter_app. cbn [filter]. rewrite fn. reflexivity. }
  subst a. specialize (L r (deps t r M)).
  assert (K : In r (imports ++ names tas)). { apply (Permutation_in r (Permutation_sym P)). rewrite E'. apply in_or_app. left. exact L. }
  apply in_app_or in K. destruct K as [K|K]; [left; exact K|right]. apply filter_In. split; [exact L|]. apply known_In. exact K.
Qed.
End Sort.
