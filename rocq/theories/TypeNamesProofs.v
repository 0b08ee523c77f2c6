(** Names of types: distinct, and stable. *)
From Coq Require Import String Ascii List Bool Arith ZArith Lia.
From Verif Require Import Names TypeNames TypeNamesSpec.
Import ListNotations.
Local Open Scope list_scope.

Lemma lookup_none : forall {A} k (m : list (string * A)), lookup k m = None <-> ~ In k (map fst m).
Proof.
  intros A k m. induction m as [|[k' v] m IH]; cbn -[String.eqb]; [tauto|].
  destruct (String.eqb_spec k k') as [->|N].
  - split; [discriminate|]. intros H. exfalso. apply H. now left.
  - rewrite IH. split; intros H; [intros [E|E]; [congruence|tauto]|tauto].
Qed.

Lemma taken_allocate : forall m u n, taken (allocate m u n) = n :: taken m.
Proof. intros m u n. unfold allocate, taken. destruct (lookup n m); reflexivity. Qed.

Lemma keyword_spec : forall s, keyword s = true <-> In s c90.
Proof.
  intros s. unfold keyword. rewrite existsb_exists. change c90 with c_keywords. split.
  - intros [x [H E]]. apply String.eqb_eq in E. now subst.
  - intros H. exists s. split; [assumption|]. apply String.eqb_refl.
Qed.
Lemma next_keyword : forall s, keyword s = true -> keyword (next_count s) = false.
Proof.
  intros s H. apply keyword_spec in H. unfold c90 in H. cbn in H.
  repeat (destruct H as [H|H]; [subst s; vm_compute; reflexivity|]). destruct H.
Qed.

Lemma valid_name_fresh : forall fuel tp m u n r, valid_name fuel tp m u n = Some r -> ~ In r (taken m) /\ ~ In r c90.
Proof.
  induction fuel as [|f IH]; intros tp m u n r; cbn -[keyword next_count prefix append drop String.length]; [discriminate|].
  set (x := if keyword n then next_count n else n).
  assert (K : keyword x = false) by (unfold x; destruct (keyword n) eqn:E; [now apply next_keyword|assumption]).
  destruct (lookup x m) as [us|] eqn:L.
  - destruct (existsb (String.eqb u) us); [apply IH|]. destruct (prefix tp x); apply IH.
  - intros E. injection E as <-. split; [now apply lookup_none in L|].
    intros H. apply keyword_spec in H. congruence.
Qed.

Lemma reserve_fresh : forall fuel tp m u n r m', reserve fuel tp m u n = Ok (r, m') ->
  ~ In r (taken m) /\ ~ In r c90 /\ taken m' = r :: taken m.
Proof.
  intros fuel tp m u n r m'. unfold reserve. destruct (valid_name fuel tp m u n) as [x|] eqn:E; [|discriminate].
  intros H. injection H as <- <-. destruct (valid_name_fresh _ _ _ _ _ _ E) as [A B].
  split; [assumption|]. split; [assumption|]. apply taken_allocate.
Qed.

Lemma bind_ok : forall {A B} (o : out A) (f : A -> out B) b, bind o f = Ok b -> exists a, o = Ok a /\ f a = Ok b.
Proof. intros A B [a| |] f b H; cbn in H; try discriminate. eauto. Qed.

Lemma reserve_all_fresh : forall fuel tp sufs m u p ns m', reserve_all fuel tp m u p sufs = Ok (ns, m') ->
  NoDup ns /\ disjoint ns (taken m) /\ disjoint ns c90 /\
  (forall n, In n (taken m') <-> In n ns \/ In n (taken m)) /\ length ns = length sufs.
Proof.
  intros fuel tp. induction sufs as [|s sufs IH]; intros m u p ns m' H; cbn -[append] in H.
  - injection H as <- <-. split; [constructor|]. repeat split; try (intros x []); cbn; tauto.
  - apply bind_ok in H. destruct H as [[n m1] [R H]]. apply bind_ok in H. destruct H as [[ns1 m2] [R2 H]].
    injection H as <- <-. destruct (reserve_fresh _ _ _ _ _ _ _ R) as [F [K T]].
    destruct (IH _ _ _ _ _ R2) as [ND [D [DK [I L]]]].
    split; [|split; [|split; [|split]]].
    + constructor; [|assumption]. intros Hn. apply (D _ Hn). rewrite T. now left.
    + intros x [<-|Hx]; [assumption|]. intros Hm. apply (D _ Hx). rewrite T. now right.
    + intros x [<-|Hx]; [assumption|]. now apply DK.
    + intros x. rewrite I, T. cbn. tauto.
    + cbn. now rewrite L.
Qed.

(** Maps keyed by references. *)
Lemma find_remove : forall {A} i j (m : list (ref * A)),
  find_ref j (remove_ref i m) = if ref_eq i j then None else find_ref j m.
Proof.
  intros A i j m. unfold remove_ref. induction m as [|[k v] m IH]; cbn.
  - now destruct (ref_eq i j).
  - destruct (ref_eq i k) as [->|N]; cbn.
    + rewrite IH. destruct (ref_eq k j) as [->|N]; [reflexivity|]. destruct (ref_eq j k); [congruence|reflexivity].
    + rewrite IH. destruct (ref_eq j k) as [->|N2].
      * destruct (ref_eq i k); [congruence|reflexivity].
      * reflexivity.
Qed.
Lemma find_add : forall {A} i (v : A) j m, find_ref j (add_ref i v m) = if ref_eq i j then Some v else find_ref j m.
Proof.
  intros A i v j m. unfold add_ref. cbn. rewrite find_remove.
  destruct (ref_eq j i) as [E|N]; destruct (ref_eq i j); congruence.
Qed.
Ltac refs := repeat (rewrite find_add in * || rewrite find_remove in *); repeat match goal with
  | H : context [ref_eq ?a ?b] |- _ => destruct (ref_eq a b); try discriminate; subst
  | |- context [ref_eq ?a ?b] => destruct (ref_eq a b); try discriminate; subst
  end.

Record good (st : state) : Prop := {
  g_def : forall i d, find_ref i (defs st) = Some d ->
    NoDup (def_names d) /\ (forall n, In n (def_names d) -> In n (taken (alloc st)) /\ ~ In n c90);
  g_disj : forall i j d e, find_ref i (defs st) = Some d -> find_ref j (defs st) = Some e -> i <> j ->
    disjoint (def_names d) (def_names e);
  g_temp : forall i n, find_ref i (temp st) = Some n -> In n (taken (alloc st)) /\ ~ In n c90;
  g_inj : forall i j n, find_ref i (temp st) = Some n -> find_ref j (temp st) = Some n -> i = j;
  g_same : forall i n d, find_ref i (temp st) = Some n -> find_ref i (defs st) = Some d -> def_name d = n;
  g_other : forall i j n d, find_ref i (temp st) = Some n -> find_ref j (defs st) = Some d -> i <> j ->
    ~ In n (def_names d) }.

Lemma good_initial : good initial_state.
Proof. constructor; cbn; intros; try discriminate. Qed.

Lemma temporary_good : forall fuel tp st i u n st', temporary fuel tp st i u n = Ok st' ->
  defs st = [] -> find_ref i (temp st) = None -> good st ->
  good st' /\ defs st' = [] /\ (exists x, temp st' = add_ref i x (temp st) /\ reserve fuel tp (alloc st) u n = Ok (x, alloc st')).
Proof.
  intros fuel tp st i u n st' H D N G. unfold temporary in H. apply bind_ok in H. destruct H as [[x m] [R H]].
  injection H as <-. destruct (reserve_fresh _ _ _ _ _ _ _ R) as [F [K T]].
  split; [|split; [exact D|exists x; cbn; split; [reflexivity|exact R]]].
  destruct G as [G1 G2 G3 G4 G5 G6].
  constructor; cbn [alloc defs temp]; rewrite ?D; cbn [find_ref]; try (intros; discriminate).
  - intros j y Hy. rewrite find_add in Hy. destruct (ref_eq i j).
    + injection Hy as <-. rewrite T. split; [now left|assumption].
    + destruct (G3 _ _ Hy). rewrite T. split; [now right|assumption].
  - intros j1 j2 y H1 H2. rewrite find_add in H1, H2. destruct (ref_eq i j1), (ref_eq i j2).
    + congruence.
    + injection H1 as ->. exfalso. apply F. apply (G3 _ _ H2).
    + injection H2 as ->. exfalso. apply F. apply (G3 _ _ H1).
    + eauto.
Qed.

(** [st'] keeps what [st] has. *)
Definition keeps (st st' : state) : Prop :=
  temp st' = temp st /\ (forall n, In n (taken (alloc st)) -> In n (taken (alloc st'))) /\
  (forall i d, find_ref i (defs st) = Some d -> exists d', find_ref i (defs st') = Some d' /\ same_def d d').
Lemma same_refl : forall d, same_def d d.
Proof. intros d. repeat split. Qed.
Lemma same_trans : forall a b c, same_def a b -> same_def b c -> same_def a c.
Proof. intros a b c [A [B [C [D E]]]] [A' [B' [C' [D' E']]]]. repeat split; congruence. Qed.
Lemma same_sym : forall a b, same_def a b -> same_def b a.
Proof. intros a b [A [B [C [D E]]]]. repeat split; congruence. Qed.
Lemma same_kind : forall d k, same_def d (with_kind d k).
Proof. intros d k. destruct d. repeat split. Qed.
Lemma same_names : forall a b, same_def a b -> def_names a = def_names b.
Proof. intros a b [A [B [C [D E]]]]. unfold def_names. congruence. Qed.
Lemma keeps_refl : forall st, keeps st st.
Proof. intros st. split; [reflexivity|]. split; [auto|]. intros i d H. exists d. split; [assumption|apply same_refl]. Qed.
Lemma keeps_trans : forall a b c, keeps a b -> keeps b c -> keeps a c.
Proof.
  intros a b c [T [A D]] [T' [A' D']]. split; [congruence|]. split; [auto|].
  intros i d H. destruct (D _ _ H) as [d1 [H1 S1]]. destruct (D' _ _ H1) as [d2 [H2 S2]].
  exists d2. split; [assumption|eapply same_trans; eassumption].
Qed.

Lemma define_good : forall fuel tp c st0 st i u k d st', define fuel tp c st0 st i u k = Ok (d, st') ->
  good st -> alloc st0 = alloc st -> temp st0 = temp st -> find_ref i (defs st) = None ->
  good st' /\ keeps st st' /\ defs st' = add_ref i d (defs st) /\ def_class d = c /\ def_kind d = k /\ def_unit d = u.
Proof.
  intros fuel tp c st0 st i u k d st' H G EA ET N. unfold define in H.
  apply bind_ok in H. destruct H as [[p a] [P H]]. apply bind_ok in H. destruct H as [[n m] [R H]].
  apply bind_ok in H. destruct H as [[aux m'] [RA H]]. injection H as <- <-.
  destruct (reserve_all_fresh _ _ _ _ _ _ _ _ RA) as [ND [DA [DK [I L]]]].
  destruct G as [G1 G2 G3 G4 G5 G6].
  assert (M : forall x, In x (taken (alloc st)) -> In x (taken m)).
  { unfold reserve_master in R. rewrite EA in R. destruct (find_ref i (temp st0)).
    - injection R as <- <-. auto.
    - destruct (reserve_fresh _ _ _ _ _ _ _ R) as [_ [_ T]]. rewrite T. now right. }
  assert (NM : In n (taken m) /\ ~ In n c90).
  { unfold reserve_master in R. destruct (find_ref i (temp st0)) eqn:E.
    - injection R as <- <-. rewrite ET in E. rewrite EA. exact (G3 _ _ E).
    - destruct (reserve_fresh _ _ _ _ _ _ _ R) as [_ [K T]]. rewrite T. split; [now left|assumption]. }
  (* the name belongs to nobody else *)
  assert (NO : forall j e, find_ref j (defs st) = Some e -> ~ In n (def_names e)).
  { intros j e Hj Hn. unfold reserve_master in R. destruct (find_ref i (temp st0)) eqn:E.
    - injection R as <- <-. rewrite ET in E. assert (i <> j) by congruence. now apply (G6 _ _ _ _ E Hj).
    - rewrite EA in R. destruct (reserve_fresh _ _ _ _ _ _ _ R) as [F _]. apply F. now apply (G1 _ _ Hj). }
  assert (NT : forall j x, find_ref j (temp st) = Some x -> i <> j -> x <> n).
  { intros j x Hj Nij ->. unfold reserve_master in R. destruct (find_ref i (temp st0)) eqn:E.
    - injection R as <- <-. rewrite ET in E. apply Nij. eapply G4; eassumption.
    - rewrite EA in R. destruct (reserve_fresh _ _ _ _ _ _ _ R) as [F _]. apply F. now apply (G3 _ _ Hj). }
  assert (NS : forall x, find_ref i (temp st) = Some x -> n = x).
  { intros x Hx. unfold reserve_master in R. rewrite ET, Hx in R. now injection R. }
  split; [|split; [|cbn; auto 6]].
  - constructor; cbn [alloc defs temp].
    + intros j e H. refs.
      * injection H as <-. unfold def_names. cbn [def_name def_aux]. split.
        -- constructor; [|assumption]. intros Hn. apply (DA _ Hn). apply NM.
        -- intros x [<-|Hx]; [split; [apply I; right; apply NM|apply NM]|]. split; [apply I; now left|now apply DK].
      * destruct (G1 _ _ H) as [A B]. split; [assumption|]. intros x Hx. destruct (B _ Hx) as [B1 B2].
        split; [apply I; right; now apply M|assumption].
    + assert (W : forall j e, find_ref j (defs st) = Some e -> disjoint (n :: aux) (def_names e)).
      { intros j e Hj x [<-|Hx] He; [now apply (NO _ _ Hj)|]. apply (DA _ Hx). apply M. now apply (G1 _ _ Hj). }
      intros j1 j2 e1 e2 H1 H2 NE. refs; try congruence.
      * injection H2 as <-. intros x Hx Hn. exact (W _ _ H1 x Hn Hx).
      * injection H1 as <-. now apply (W _ _ H2).
      * eauto.
    + intros j x H. destruct (G3 _ _ H). split; [apply I; right; now apply M|assumption].
    + exact G4.
    + intros j x e Hx He. refs.
      * injection He as <-. cbn. now apply NS.
      * eauto.
    + intros j1 j2 x e Hx He NE. refs.
      * injection He as <-. unfold def_names. cbn [def_name def_aux]. intros [E|E].
        -- subst. apply (NT _ _ Hx (not_eq_sym NE)). reflexivity.
        -- apply (DA _ E). apply M. now apply (G3 _ _ Hx).
      * eauto.
  - split; [reflexivity|]. split; [intros x Hx; cbn; apply I; right; now apply M|].
    cbn [defs]. intros j e Hj. refs; [congruence|]. exists e. split; [assumption|apply same_refl].
Qed.

Lemma register_new_good : forall fuel tp c st i d st', register_new fuel tp c st i = Ok (d, st') -> good st ->
  good st' /\ keeps st st' /\ find_ref i (defs st') = Some d /\ def_class d = c /\
  (forall j, find_ref j (defs st') <> None -> find_ref j (defs st) <> None \/ j = i).
Proof.
  intros fuel tp c st i d st' H G. unfold register_new in H. apply bind_ok in H. destruct H as [mn [_ H]].
  destruct (find_ref i (defs st)) as [v|] eqn:F.
  - destruct (class_eq (def_class v) c); [|discriminate]. injection H as <- <-.
    split; [assumption|]. split; [apply keeps_refl|]. auto.
  - destruct (define_good _ _ _ _ _ _ _ _ _ _ H G eq_refl eq_refl F) as [A [B [C [D _]]]].
    split; [assumption|]. split; [assumption|]. rewrite C. split; [refs; congruence|]. split; [assumption|].
    intros j Hj. refs; auto.
Qed.

(** Where nothing is reserved the map stays the same. *)
Lemma register_new_primitive : forall fuel tp st i d st', register_new fuel tp Primitive st i = Ok (d, st') ->
  find_ref i (temp st) <> None -> alloc st' = alloc st.
Proof.
  intros fuel tp st i d st' H T. unfold register_new in H. apply bind_ok in H. destruct H as [mn [_ H]].
  destruct (find_ref i (defs st)) as [v|].
  - destruct (class_eq (def_class v) Primitive); [|discriminate]. now injection H as <- <-.
  - unfold define in H. apply bind_ok in H. destruct H as [[p a] [_ H]]. apply bind_ok in H. destruct H as [[n m] [R H]].
    cbn in H. injection H as <- <-. cbn. unfold reserve_master in R.
    destruct (find_ref i (temp st)); [now injection R|congruence].
Qed.

(** The kind of a definition may be put right later. *)
Lemma rekind_good : forall st i d k, good st -> find_ref i (defs st) = Some d ->
  let st' := mkst (alloc st) (add_ref i (with_kind d k) (remove_ref i (defs st))) (temp st) in good st' /\ keeps st st'.
Proof.
  intros st i d k G F st'.
  assert (B : forall j e, find_ref j (defs st') = Some e -> exists e', find_ref j (defs st) = Some e' /\ same_def e' e).
  { intros j e H. cbn in H. change (find_ref j (add_ref i (with_kind d k) (remove_ref i (defs st))) = Some e) in H. refs.
    - injection H as <-. exists d. split; [assumption|apply same_kind].
    - exists e. split; [assumption|apply same_refl]. }
  destruct G as [G1 G2 G3 G4 G5 G6]. split.
  - constructor; unfold st'; cbn [alloc temp]; fold st'.
    + intros j e H. destruct (B _ _ H) as [e' [H' S]]. rewrite <- (same_names _ _ S). exact (G1 _ _ H').
    + intros j1 j2 e1 e2 H1 H2 N. destruct (B _ _ H1) as [e1' [H1' S1]]. destruct (B _ _ H2) as [e2' [H2' S2]].
      rewrite <- (same_names _ _ S1), <- (same_names _ _ S2). eapply G2; eassumption.
    + exact G3.
    + exact G4.
    + intros j n e Hn H. destruct (B _ _ H) as [e' [H' S]]. rewrite <- (G5 _ _ _ Hn H').
      destruct S as [_ [_ [E _]]]. congruence.
    + intros j1 j2 n e Hn H N. destruct (B _ _ H) as [e' [H' S]]. rewrite <- (same_names _ _ S). eapply G6; eassumption.
  - split; [reflexivity|]. split; [auto|]. intros j e H. unfold st'. cbn [defs]. refs.
    + exists (with_kind d k). split; [reflexivity|]. rewrite F in H. injection H as <-. apply same_kind.
    + exists e. split; [assumption|apply same_refl].
Qed.
