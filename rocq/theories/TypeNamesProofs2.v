(** Names of types: all calls. *)
From Coq Require Import String Ascii List Bool Arith ZArith Lia.
From Verif Require Import Names TypeNames TypeNamesSpec TypeNamesProofs.
Import ListNotations.
Local Open Scope list_scope.

(** Every type assignment of [tas] has a temporary name. *)
Definition ready (tas : list (string * string)) (st : state) : Prop :=
  forall m t, In (m, t) tas -> find_ref [MD m; TA t] (temp st) <> None.

Lemma register_good : forall fuel tp tas c st d st',
  register fuel tp (c_class c) st (c_id c) (c_kind c) = Ok (d, st') -> good st -> ready tas st -> based tas c ->
  good st' /\ keeps st st' /\
  (forall j, find_ref j (defs st') <> None -> find_ref j (defs st) <> None \/ In j (targets c)) /\
  (match c_kind c with FRTL _ | FRef _ => find_ref (c_id c) (defs st) = None | _ => True end -> answer st' c d).
Proof.
  intros fuel tp tas [c i kind] st d st'. unfold answer, targets. cbn [c_class c_id c_kind]. intros H G RD B.
  unfold register in H. apply bind_ok in H. destruct H as [mn [_ H]].
  destruct (find_ref i (defs st)) as [v|] eqn:F.
  - destruct (class_eq (def_class v) c) as [EC|]; [|discriminate].
    destruct kind as [r| |sub|r].
    + injection H as <- <-. split; [assumption|]. split; [apply keeps_refl|]. split; [auto|]. congruence.
    + injection H as <- <-. split; [assumption|]. split; [apply keeps_refl|]. split; [auto|].
      intros _. exists v. split; [assumption|apply same_refl].
    + destruct (def_kind v) as [| |s|].
      3: { injection H as <- <-. split; [assumption|]. split; [apply keeps_refl|]. split; [auto|].
           intros _. exists v. split; [assumption|apply same_refl]. }
      all: apply bind_ok in H; destruct H as [[s ns1] [R H]]; injection H as <- <-;
        destruct (register_new_good _ _ _ _ _ _ _ R G) as [G1 [K1 [F1 [_ KB]]]];
        destruct (proj2 (proj2 K1) _ _ F) as [v' [Fv Sv]];
        destruct (rekind_good _ _ _ (SubType s) G1 Fv) as [G2 K2];
        assert (EV : v' = v) by
          (clear - R F Fv; unfold register_new in R; apply bind_ok in R; destruct R as [mn2 [_ R]];
           destruct (find_ref sub (defs st)) as [w|] eqn:Fs;
           [destruct (class_eq (def_class w) c); [|discriminate]; injection R as <- <-; congruence|];
           unfold define in R; apply bind_ok in R; destruct R as [[? ?] [_ R]]; apply bind_ok in R;
           destruct R as [[? ?] [_ R]]; apply bind_ok in R; destruct R as [[? ?] [_ R]]; injection R as <- <-;
           cbn [defs] in Fv; rewrite find_add in Fv; destruct (ref_eq sub i); congruence);
        subst v';
        (split; [exact G2|]); (split; [eapply keeps_trans; eassumption|]); (split;
         [intros j Hj; cbn [defs] in Hj; rewrite find_add, find_remove in Hj; destruct (ref_eq i j);
          [left; congruence|]; destruct (KB _ Hj); [now left|right; cbn; auto]
         |intros _; exists (with_kind v (SubType s)); cbn [defs]; rewrite find_add; destruct (ref_eq i i);
          [split; [reflexivity|apply same_refl]|congruence]]).
    + injection H as <- <-. split; [assumption|]. split; [apply keeps_refl|]. split; [auto|]. congruence.
  - destruct kind as [r| |sub|r].
    + destruct c; try discriminate. destruct r as [[[u n] a]|]; [|discriminate]. injection H as <- <-.
      split; [assumption|]. split; [apply keeps_refl|]. split; [auto|]. reflexivity.
    + destruct (define_good _ _ _ _ _ _ _ _ _ _ H G eq_refl eq_refl F) as [A [K [D _]]].
      split; [assumption|]. split; [assumption|]. rewrite D. split.
      * intros j Hj. rewrite find_add in Hj. destruct (ref_eq i j); cbn; auto.
      * intros _. exists d. rewrite D, find_add. destruct (ref_eq i i); [split; [reflexivity|apply same_refl]|congruence].
    + apply bind_ok in H. destruct H as [[s ns1] [R H]].
      destruct (register_new_good _ _ _ _ _ _ _ R G) as [G1 [K1 [F1 [_ KB]]]].
      destruct (find_ref i (defs ns1)) eqn:F2.
      * (* the base is the type itself: it has just been defined *)
        assert (E : i = sub) by (destruct (KB i ltac:(congruence)); congruence).
        subst sub. exfalso. destruct (B i eq_refl) as [NE _]. now apply NE.
      * assert (AL : alloc (if class_eq c Primitive then st else ns1) = alloc ns1).
        { destruct (class_eq c Primitive) as [->|]; [|reflexivity]. symmetry.
          eapply register_new_primitive; [exact R|]. destruct (proj2 (B sub eq_refl) eq_refl) as [m [t [Hin ->]]]. now apply RD. }
        assert (TE : temp (if class_eq c Primitive then st else ns1) = temp ns1)
          by (destruct (class_eq c Primitive); [symmetry; apply K1|reflexivity]).
        destruct (define_good _ _ _ _ _ _ _ _ _ _ H G1 AL TE F2) as [A [K [D _]]].
        split; [assumption|]. split; [eapply keeps_trans; eassumption|]. rewrite D. split.
        -- intros j Hj. rewrite find_add in Hj. destruct (ref_eq i j); [right; cbn; auto|].
           destruct (KB _ Hj); [now left|right; cbn; auto].
        -- intros _. exists d. rewrite D, find_add. destruct (ref_eq i i); [split; [reflexivity|apply same_refl]|congruence].
    + apply bind_ok in H. destruct H as [[s ns1] [R H]]. injection H as <- <-.
      destruct (register_new_good _ _ _ _ _ _ _ R G) as [G1 [K1 [F1 [_ KB]]]].
      split; [assumption|]. split; [assumption|]. split.
      * intros j Hj. destruct (KB _ Hj); [now left|right; cbn; auto].
      * intros _. exists s. split; [assumption|apply same_sym, same_kind].
Qed.

Lemma calls_good : forall fuel tp tas l st ds st',
  calls fuel tp st l = Ok (ds, st') -> good st -> ready tas st -> (forall c, In c l -> based tas c) ->
  good st' /\ keeps st st'.
Proof.
  intros fuel tp tas. induction l as [|c l IH]; intros st ds st' H G R B; cbn in H.
  - injection H as <- <-. split; [assumption|apply keeps_refl].
  - apply bind_ok in H. destruct H as [[d st1] [H1 H]]. apply bind_ok in H. destruct H as [[ds1 st2] [H2 H]].
    injection H as <- <-.
    destruct (register_good _ _ tas _ _ _ _ H1 G R (B c (or_introl eq_refl))) as [G1 [K1 _]].
    assert (R1 : ready tas st1) by (intros m t Hm; rewrite (proj1 K1); now apply R).
    destruct (IH _ _ _ H2 G1 R1 (fun x Hx => B x (or_intror Hx))) as [G2 K2].
    split; [assumption|]. eapply keeps_trans; eassumption.
Qed.

Lemma defined_keeps : forall st st' i d, keeps st st' -> defined st i d -> defined st' i d.
Proof.
  intros st st' i d [_ [_ K]] [d' [F S]]. destruct (K _ _ F) as [d2 [F2 S2]]. exists d2.
  split; [assumption|]. eapply same_trans; eassumption.
Qed.
Lemma answer_keeps : forall st st' c d, keeps st st' -> answer st c d -> answer st' c d.
Proof.
  intros st st' c d K. unfold answer. destruct (c_kind c); auto; apply defined_keeps; assumption.
Qed.

Lemma calls_answers : forall fuel tp tas l0 l st ds st',
  calls fuel tp st l = Ok (ds, st') -> good st -> ready tas st -> (forall c, In c l -> based tas c) ->
  settled l0 -> (forall c, In c l -> In c l0) ->
  (forall j, find_ref j (defs st) <> None -> In j (flat_map targets l0)) ->
  Forall2 (answer st') l ds.
Proof.
  intros fuel tp tas l0. induction l as [|c l IH]; intros st ds st' H G R B S I T; cbn in H.
  - injection H as <- <-. constructor.
  - apply bind_ok in H. destruct H as [[d st1] [H1 H]]. apply bind_ok in H. destruct H as [[ds1 st2] [H2 H]].
    injection H as <- <-.
    destruct (register_good _ _ tas _ _ _ _ H1 G R (B c (or_introl eq_refl))) as [G1 [K1 [T1 A1]]].
    assert (R1 : ready tas st1) by (intros m t Hm; rewrite (proj1 K1); now apply R).
    assert (T2 : forall j, find_ref j (defs st1) <> None -> In j (flat_map targets l0)).
    { intros j Hj. destruct (T1 _ Hj) as [Hj'|Hj']; [now apply T|].
      apply in_flat_map. exists c. split; [apply I; now left|assumption]. }
    constructor.
    + destruct (calls_good _ _ tas _ _ _ _ H2 G1 R1 (fun x Hx => B x (or_intror Hx))) as [_ K2].
      apply (answer_keeps _ _ _ _ K2). apply A1.
      specialize (S c (I c (or_introl eq_refl))).
      destruct (c_kind c); auto; destruct (find_ref (c_id c) (defs st)) eqn:E; try reflexivity;
        exfalso; apply S, T; congruence.
    + apply (IH st1 ds1 st2); auto.
      * intros x Hx. apply B. now right.
      * intros x Hx. apply I. now right.
Qed.

Lemma temporaries_good : forall fuel tp tas st st', temporaries fuel tp st tas = Ok st' ->
  good st -> defs st = [] -> NoDup tas -> (forall m t, In (m, t) tas -> find_ref [MD m; TA t] (temp st) = None) ->
  good st' /\ defs st' = [] /\ (forall i x, find_ref i (temp st) = Some x -> find_ref i (temp st') = Some x) /\ ready tas st'.
Proof.
  intros fuel tp. induction tas as [|[m t] tas IH]; intros st st' H G D ND N; cbn -[append] in H.
  - injection H as <-. split; [assumption|]. split; [assumption|]. split; [auto|]. intros m t [].
  - apply bind_ok in H. destruct H as [st1 [H1 H]]. inversion ND as [|? ? NI ND2]; subst.
    destruct (temporary_good _ _ _ _ _ _ _ H1 D (N m t (or_introl eq_refl)) G) as [G1 [D1 [x [T1 _]]]].
    assert (N1 : forall m' t', In (m', t') tas -> find_ref [MD m'; TA t'] (temp st1) = None).
    { intros m' t' Hin. rewrite T1, find_add. destruct (ref_eq [MD m; TA t] [MD m'; TA t']) as [E|E].
      - injection E as <- <-. contradiction.
      - apply N. now right. }
    destruct (IH _ _ H G1 D1 ND2 N1) as [G2 [D2 [K2 R2]]].
    split; [assumption|]. split; [assumption|]. split.
    + intros i y Hy. apply K2. rewrite T1, find_add. destruct (ref_eq [MD m; TA t] i) as [<-|E]; [|assumption].
      rewrite (N m t (or_introl eq_refl)) in Hy. discriminate.
    + intros m' t' [E|Hin]; [injection E as <- <-|now apply R2].
      rewrite (K2 [MD m; TA t] x); [discriminate|]. rewrite T1, find_add.
      destruct (ref_eq [MD m; TA t] [MD m; TA t]); congruence.
Qed.

Lemma merge_good : forall fuel tp tas l ds st, merge fuel tp tas l = Ok (ds, st) -> NoDup tas ->
  (forall c, In c l -> based tas c) -> good st.
Proof.
  intros fuel tp tas l ds st H ND B. unfold merge in H. apply bind_ok in H. destruct H as [st0 [H0 H]].
  destruct (temporaries_good _ _ _ _ _ H0 good_initial eq_refl ND) as [G [D [_ R]]]; [reflexivity|].
  now apply (calls_good _ _ tas _ _ _ _ H G R B).
Qed.

Lemma merge_unique : forall fuel tp tas l ds st, merge fuel tp tas l = Ok (ds, st) -> NoDup tas ->
  (forall c, In c l -> based tas c) ->
  (forall i d, find_ref i (defs st) = Some d -> NoDup (def_names d) /\ disjoint (def_names d) c90) /\
  (forall i j d e, find_ref i (defs st) = Some d -> find_ref j (defs st) = Some e -> i <> j ->
     disjoint (def_names d) (def_names e)).
Proof.
  intros fuel tp tas l ds st H ND B. pose proof (merge_good _ _ _ _ _ _ H ND B) as G. split.
  - intros i d F. destruct (g_def _ G _ _ F) as [A C]. split; [assumption|]. intros x Hx. now apply C.
  - apply (g_disj _ G).
Qed.

Lemma merge_answers : forall fuel tp tas l ds st, merge fuel tp tas l = Ok (ds, st) -> NoDup tas ->
  (forall c, In c l -> based tas c) -> settled l -> Forall2 (answer st) l ds.
Proof.
  intros fuel tp tas l ds st H ND B S. unfold merge in H. apply bind_ok in H. destruct H as [st0 [H0 H]].
  destruct (temporaries_good _ _ _ _ _ H0 good_initial eq_refl ND) as [G [D [_ R]]]; [reflexivity|].
  eapply calls_answers; try eassumption; auto. rewrite D. cbn. congruence.
Qed.

(** Names that are distinct to begin with are kept. *)
Lemma reserve_plain : forall fuel tp m u n, ~ In n (taken m) -> ~ In n c90 ->
  reserve (S fuel) tp m u n = Ok (n, allocate m u n).
Proof.
  intros fuel tp m u n T K. unfold reserve. cbn -[keyword next_count].
  destruct (keyword n) eqn:E; [exfalso; now apply K, keyword_spec|].
  apply lookup_none in T. now rewrite T.
Qed.
Lemma temporaries_plain : forall fuel tp tas st,
  good st -> defs st = [] -> NoDup (map (fun mt => ToC (tp ++ snd mt)%string) tas) ->
  disjoint (map (fun mt => ToC (tp ++ snd mt)%string) tas) (c90 ++ taken (alloc st)) ->
  (forall m t, In (m, t) tas -> find_ref [MD m; TA t] (temp st) = None) ->
  exists st', temporaries (S fuel) tp st tas = Ok st' /\ good st' /\ defs st' = [] /\
    (forall i x, find_ref i (temp st) = Some x -> find_ref i (temp st') = Some x) /\
    (forall m t, In (m, t) tas -> find_ref [MD m; TA t] (temp st') = Some (ToC (tp ++ t))).
Proof.
  intros fuel tp. induction tas as [|[m t] tas IH]; intros st G D ND DJ N.
  - exists st. cbn. split; [reflexivity|]. split; [assumption|]. split; [assumption|]. split; [auto|]. intros m t [].
  - cbn [map snd] in ND, DJ. inversion ND as [|? ? NI ND2]; subst.
    assert (F : ~ In (ToC (tp ++ t)) (c90 ++ taken (alloc st))) by (apply DJ; now left).
    assert (R : reserve (S fuel) tp (alloc st) (ToC m) (ToC (tp ++ t)) = Ok (ToC (tp ++ t), allocate (alloc st) (ToC m) (ToC (tp ++ t)))).
    { apply reserve_plain; intros H; apply F, in_or_app; auto. }
    assert (H1 : temporary (S fuel) tp st [MD m; TA t] (ToC m) (ToC (tp ++ t)) =
      Ok (mkst (allocate (alloc st) (ToC m) (ToC (tp ++ t))) (defs st) (add_ref [MD m; TA t] (ToC (tp ++ t)) (temp st))))
      by (unfold temporary; rewrite R; reflexivity).
    destruct (temporary_good _ _ _ _ _ _ _ H1 D (N m t (or_introl eq_refl)) G) as [G1 [D1 _]].
    match type of H1 with _ = Ok ?s => set (st1 := s) in * end.
    assert (N1 : forall m' t', In (m', t') tas -> find_ref [MD m'; TA t'] (temp st1) = None).
    { intros m' t' Hin. unfold st1. cbn [temp]. rewrite find_add. destruct (ref_eq [MD m; TA t] [MD m'; TA t']) as [E|E].
      - injection E as <- <-. exfalso. apply NI. now apply (in_map (fun mt => ToC (tp ++ snd mt)%string)) in Hin.
      - apply N. now right. }
    destruct (IH st1 G1 D1 ND2) as [st' [E [G2 [D2 [K2 A2]]]]]; [| assumption |].
    { intros x Hx Hn. apply in_app_or in Hn. destruct Hn as [Hn|Hn].
      - apply (DJ x); [now right|]. apply in_or_app. now left.
      - unfold st1 in Hn. cbn [alloc] in Hn. rewrite taken_allocate in Hn. destruct Hn as [<-|Hn]; [contradiction|].
        apply (DJ x); [now right|]. apply in_or_app. now right. }
    assert (S1 : find_ref [MD m; TA t] (temp st1) = Some (ToC (tp ++ t)))
      by (unfold st1; cbn [temp]; rewrite find_add; destruct (ref_eq [MD m; TA t] [MD m; TA t]); congruence).
    exists st'. split; [cbn -[append ToC temporary]; rewrite H1; exact E|].
    split; [assumption|]. split; [assumption|]. split.
    + intros i y Hy. apply K2. unfold st1. cbn [temp]. rewrite find_add.
      destruct (ref_eq [MD m; TA t] i) as [<-|]; [|assumption]. rewrite (N m t (or_introl eq_refl)) in Hy. discriminate.
    + intros m' t' [Em|Hin]; [injection Em as <- <-; now apply K2|now apply A2].
Qed.

Lemma merge_plain : forall fuel tp tas l ds st, merge (S fuel) tp tas l = Ok (ds, st) -> NoDup tas ->
  (forall c, In c l -> based tas c) ->
  NoDup (map (fun mt => ToC (tp ++ snd mt)%string) tas) -> disjoint (map (fun mt => ToC (tp ++ snd mt)%string) tas) c90 ->
  forall m t d, In (m, t) tas -> find_ref [MD m; TA t] (defs st) = Some d -> def_name d = ToC (tp ++ t).
Proof.
  intros fuel tp tas l ds st H ND B NN DK m t d Hin F. pose proof (merge_good _ _ _ _ _ _ H ND B) as G.
  unfold merge in H. apply bind_ok in H. destruct H as [st0 [H0 H]].
  destruct (temporaries_plain fuel tp tas initial_state good_initial eq_refl NN) as [st1 [E [G1 [D1 [_ A]]]]].
  { cbn [alloc initial_state]. cbn [taken map]. now rewrite app_nil_r. }
  { reflexivity. }
  rewrite H0 in E. injection E as <-.
  assert (R : ready tas st0) by (intros m' t' Hm; rewrite (A _ _ Hm); discriminate).
  destruct (calls_good _ _ tas _ _ _ _ H G1 R B) as [_ K].
  apply (g_same _ G [MD m; TA t]); [|assumption]. rewrite (proj1 K). now apply A.
Qed.
