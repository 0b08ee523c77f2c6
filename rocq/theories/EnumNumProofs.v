From Verif Require Import Base UperTypes UperWf EnumNum EnumNumSpec.
From Coq Require Import Permutation Sorted.
From Coq Require String.
From Coq Require Import ZifyBool ZifyNat.

Definition cf (e : list Z) (v : Z) : nat := length (filter (fun u => negb (existsb (Z.eqb u) e)) (below v)).
Lemma eqb_In : forall e u, existsb (Z.eqb u) e = true <-> In u e.
Proof.
  intros. rewrite existsb_exists. split; [intros (y & I & E); apply Z.eqb_eq in E; congruence|intros I; exists u; split; [exact I|apply Z.eqb_refl]].
Qed.
Lemma cf_step : forall e v, 0 <= v -> cf e (v + 1) = (cf e v + if existsb (Z.eqb v) e then 0 else 1)%nat.
Proof.
  intros e v H. unfold cf, below. replace (Z.to_nat (v + 1)) with (S (Z.to_nat v)) by lia.
  rewrite seq_S, map_app, filter_app, app_length. cbn [map plus]. rewrite Z2Nat.id by lia. cbn [filter].
  destruct (existsb (Z.eqb v) e); reflexivity.
Qed.
Definition valIn (al : list item) (v : Z) : Prop := exists n, In (n, Some v) al.
Lemma has_val : forall al v, existsb (has_value v) al = true <-> valIn al v.
Proof.
  intros. rewrite existsb_exists. unfold valIn, has_value. split.
  - intros ([n [w|]] & I & E); cbn [snd] in E; [|discriminate]. apply Z.eqb_eq in E. subst. eauto.
  - intros (n & I). exists (n, Some v). split; [exact I|apply Z.eqb_refl].
Qed.
Lemma getValue_spec : forall fuel al e p k, 0 <= p -> (forall u, p <= u -> (valIn al u <-> In u e)) -> cf e p = k ->
  match getValue fuel al p with
  | Some v => p <= v /\ is_free e k v
  | None => forall i, (i < fuel)%nat -> valIn al (p + Z.of_nat i)
  end.
Proof.
  induction fuel as [|fuel IH]; intros al e p k H A C; cbn [getValue]; [intros; lia|].
  destruct (existsb (has_value p) al) eqn:E.
  - apply has_val in E. specialize (IH al e (p + 1) k ltac:(lia) ltac:(intros; apply A; lia)).
    rewrite cf_step in IH by lia. assert (I : existsb (Z.eqb p) e = true) by (apply eqb_In, A; [lia|exact E]).
    rewrite I in IH. specialize (IH ltac:(lia)). destruct (getValue fuel al (p + 1)) as [v|].
    + split; [lia|tauto].
    + intros [|i] Hi; [replace (p + Z.of_nat 0) with p by lia; exact E|]. replace (p + Z.of_nat (S i)) with (p + 1 + Z.of_nat i) by lia. apply IH. lia.
  - split; [lia|]. split; [exact H|]. split; [|exact C]. intros I. apply A in I; [|lia]. apply has_val in I. congruence.
Qed.
Lemma getValue_total : forall al p, getValue (S (length al)) al p <> None.
Proof.
  intros al p H.
  assert (W : forall fuel p, getValue fuel al p = None -> forall i, (i < fuel)%nat -> valIn al (p + Z.of_nat i)).
  { clear. induction fuel as [|fuel IH]; intros p H i Hi; [lia|]. cbn [getValue] in H. destruct (existsb (has_value p) al) eqn:E; [|discriminate].
    destruct i as [|i]; [replace (p + Z.of_nat 0) with p by lia; apply has_val; exact E|].
    replace (p + Z.of_nat (S i)) with (p + 1 + Z.of_nat i) by lia. apply IH; [exact H|lia]. }
  specialize (W _ _ H).
  pose (l := map (fun i => p + Z.of_nat i) (seq 0 (S (length al)))).
  pose (d := given al).
  assert (IN : incl l d).
  { intros x Hx. unfold l in Hx. apply in_map_iff in Hx. destruct Hx as (i & <- & Hi). apply in_seq in Hi.
    destruct (W i ltac:(lia)) as [n I]. unfold d, given. apply in_flat_map. exists (n, Some (p + Z.of_nat i)). split; [exact I|left; reflexivity]. }
  assert (ND : NoDup l).
  { unfold l. apply FinFun.Injective_map_NoDup; [intros a b E; lia|apply seq_NoDup]. }
  pose proof (NoDup_incl_length ND IN) as L. unfold l in L. rewrite map_length, seq_length in L.
  assert (length d <= length al)%nat; [|lia]. unfold d, given. clear. induction al as [|[n [v|]] al IH]; cbn [flat_map snd app length]; lia.
Qed.
(** The values chosen, in order. *)
Fixpoint frees (e : list Z) (k : nat) (vs : list Z) : Prop :=
  match vs with [] => True | v :: vs => is_free e k v /\ frees e (S k) vs end.
Lemma allocate_spec : forall un al e p k, 0 <= p -> (forall u, p <= u -> (valIn al u <-> In u e)) -> cf e p = k ->
  exists vs, allocateItems un al p = Some (al ++ combine (map fst un) (map Some vs)) /\ length vs = length un /\ frees e k vs /\
    StronglySorted Z.lt vs /\ Forall (fun v => p <= v) vs.
Proof.
  induction un as [|x un IH]; intros al e p k H A C; cbn [allocateItems].
  - exists []. cbn [combine map]. rewrite app_nil_r. repeat split; constructor.
  - pose proof (getValue_spec (S (length al)) al e p k H A C) as G. pose proof (getValue_total al p) as T.
    destruct (getValue (S (length al)) al p) as [v|]; [|congruence]. clear T. destruct G as [L (G1 & G2 & G3)].
    destruct (IH (al ++ [(fst x, Some v)]) e (v + 1) (S k)) as (vs & E & LE & F & SO & FA).
    + lia.
    + intros u Hu. rewrite <- A by lia. unfold valIn. split.
      * intros (n & I). apply in_app_or in I. destruct I as [I|[I|[]]]; [eauto|]. apply (f_equal snd) in I. cbn [snd] in I. assert (v = u) by congruence. lia.
      * intros (n & I). exists n. apply in_or_app. auto.
    + rewrite cf_step by lia. fold (cf e v) in G3. destruct (existsb (Z.eqb v) e) eqn:B; [apply eqb_In in B; tauto|lia].
    + exists (v :: vs). split; [|split; [|split; [|split]]].
      * rewrite E, <- app_assoc. reflexivity.
      * cbn [length]. lia.
      * cbn [frees]. split; [repeat split; assumption|exact F].
      * constructor; [exact SO|]. eapply Forall_impl; [|exact FA]. intros; cbn beta in *; lia.
      * constructor; [lia|]. eapply Forall_impl; [|exact FA]. intros; cbn beta in *; lia.
Qed.

(** ** Back to the order of the text *)
Fixpoint fill (items : list item) (vs : list Z) : list item :=
  match items with
  | [] => []
  | (n, Some v) :: items => (n, Some v) :: fill items vs
  | (n, None) :: items => match vs with v :: vs => (n, Some v) :: fill items vs | [] => [] end
  end.
Definition isS (x : item) : bool := match snd x with Some _ => true | None => false end.
Definition isN (x : item) : bool := match snd x with Some _ => false | None => true end.
Lemma fill_perm : forall items vs, length vs = length (filter isN items) ->
  Permutation (filter isS items ++ combine (map fst (filter isN items)) (map Some vs)) (fill items vs).
Proof.
  induction items as [|[n [v|]] items IH]; intros vs L; cbn [filter isS isN snd fill app] in *.
  - destruct vs; [constructor|discriminate].
  - constructor. apply IH. exact L.
  - destruct vs as [|w vs]; [discriminate|]. cbn [map combine fst]. rewrite <- Permutation_middle. constructor. apply IH.
    cbn [length] in L. lia.
Qed.
Lemma fill_names : forall items vs, length vs = length (filter isN items) -> map fst (fill items vs) = map fst items.
Proof.
  induction items as [|[n [v|]] items IH]; intros vs L; cbn [filter isN snd fill map fst] in *.
  - reflexivity.
  - f_equal. apply IH. exact L.
  - destruct vs as [|w vs]; [discriminate|]. cbn [map fst]. f_equal. apply IH. cbn [length] in L. lia.
Qed.
Section SortP.
Context {A : Type} (key : A -> Z).
Lemma insert_perm : forall x l, Permutation (x :: l) (insert key x l).
Proof.
  intros x l. induction l as [|y l IH]; cbn [insert]; [auto|]. destruct (key x <=? key y); [auto|].
  rewrite perm_swap. constructor. exact IH.
Qed.
Lemma sortBy_perm : forall l, Permutation l (sortBy key l).
Proof. induction l as [|x l IH]; cbn [sortBy]; [auto|]. rewrite <- insert_perm. constructor. exact IH. Qed.
Definition kle (a b : A) : Prop := key a <= key b.
Definition klt (a b : A) : Prop := key a < key b.
Lemma insert_sorted : forall x l, StronglySorted kle l -> StronglySorted kle (insert key x l).
Proof.
  intros x l H. induction H as [|y l S IH F]; cbn [insert]; [repeat constructor|].
  destruct (key x <=? key y) eqn:E.
  - constructor; [constructor; assumption|]. constructor; [unfold kle; lia|]. eapply Forall_impl; [|exact F]. intros z Hz. unfold kle in *. lia.
  - constructor; [exact IH|]. apply (Permutation_Forall (insert_perm x l)). constructor; [unfold kle; lia|exact F].
Qed.
Lemma sortBy_sorted : forall l, StronglySorted kle (sortBy key l).
Proof. induction l; cbn [sortBy]; [constructor|apply insert_sorted; assumption]. Qed.
Lemma sorted_unique : forall l m, StronglySorted klt l -> StronglySorted kle m -> Permutation l m -> l = m.
Proof.
  induction l as [|x l IH]; intros m S M P; [apply Permutation_nil in P; auto|].
  destruct m as [|y m]; [symmetry in P; apply Permutation_nil in P; discriminate|].
  inversion S as [|? ? S1 F1]; subst. inversion M as [|? ? S2 F2]; subst.
  assert (x = y).
  { assert (I : In y (x :: l)) by (apply (Permutation_in y (Permutation_sym P)); left; reflexivity).
    assert (J : In x (y :: m)) by (apply (Permutation_in x P); left; reflexivity).
    destruct I as [I|I]; [exact I|]. destruct J as [J|J]; [congruence|]. exfalso.
    rewrite Forall_forall in F1, F2. specialize (F1 y I). specialize (F2 x J). unfold klt, kle in *. lia. }
  subst y. f_equal. apply IH; try assumption. apply Permutation_cons_inv in P. exact P.
Qed.
End SortP.
Lemma find_name : forall (items : list item) n, 0 <= findIndex (fun x => String.eqb (fst x) n) items.
Proof. induction items as [|x items IH]; intros n; cbn [findIndex]; [lia|]. destruct (String.eqb (fst x) n); [lia|]. specialize (IH n). lia. Qed.
Lemma names_sorted : forall (items out : list item), NoDup (map fst items) -> map fst out = map fst items ->
  StronglySorted (klt (fun ni : item => findIndex (fun x => String.eqb (fst x) (fst ni)) items)) out.
Proof.
  induction items as [|[n v] items IH]; intros out ND E; destruct out as [|[m w] out]; try discriminate; [constructor|].
  cbn [map fst] in *. inversion ND as [|? ? NI ND']; subst. injection E as -> E'. specialize (IH out ND' E').
  assert (K : forall x, In x out -> String.eqb n (fst x) = false).
  { intros x I. apply String.eqb_neq. intros C. apply NI. rewrite C, <- E'. apply in_map. exact I. }
  constructor.
  - assert (W : forall l, incl l out -> StronglySorted (klt (fun ni : item => findIndex (fun x => String.eqb (fst x) (fst ni)) items)) l ->
        StronglySorted (klt (fun ni : item => findIndex (fun x => String.eqb (fst x) (fst ni)) ((n, v) :: items))) l).
    { intros l IL S. induction S as [|x l S IHl F]; constructor.
      - apply IHl. intros y Hy. apply IL. right. exact Hy.
      - rewrite Forall_forall in *. intros y Hy. specialize (F y Hy). unfold klt in *. cbn [findIndex fst].
        rewrite (K x), (K y); [lia|apply IL; right; exact Hy|apply IL; left; reflexivity]. }
    apply W; [apply incl_refl|exact IH].
  - rewrite Forall_forall. intros y Hy. unfold klt. cbn [findIndex fst]. rewrite String.eqb_refl, (K y Hy).
    pose proof (find_name items (fst y)). lia.
Qed.
Lemma filter_S : forall items, filter (fun x : item => match snd x with Some _ => true | None => false end) items = filter isS items.
Proof. reflexivity. Qed.
Lemma given_valIn : forall items u, valIn (filter isS items) u <-> In u (given items).
Proof.
  intros. unfold valIn, given. rewrite in_flat_map. split.
  - intros (n & I). apply filter_In in I. exists (n, Some u). split; [tauto|left; reflexivity].
  - intros ([n [w|]] & I & J); cbn [snd] in J; [|destruct J]. destruct J as [->|[]]. exists n. apply filter_In. auto.
Qed.
Lemma allocated_spec : forall items : list item, NoDup (map fst items) ->
  exists vs, allocatedValuesToAllEnumItems items = Some (fill items vs) /\ length vs = length (filter isN items) /\
    frees (given items) 0 vs /\ StronglySorted Z.lt vs.
Proof.
  intros items ND. unfold allocatedValuesToAllEnumItems.
  destruct (allocate_spec (filter isN items) (filter isS items) (given items) 0 0%nat) as (vs & E & L & F & SO & _).
  - lia.
  - intros u _. apply given_valIn.
  - reflexivity.
  - cbv zeta.
    match goal with |- context [allocateItems ?a ?b 0] => change (allocateItems a b 0) with (allocateItems (filter isN items) (filter isS items) 0) end.
    rewrite E. exists vs. split; [|auto]. apply (f_equal (@Some (list item))). symmetry. eapply sorted_unique.
    + apply (names_sorted items (fill items vs) ND). apply fill_names. exact L.
    + apply sortBy_sorted.
    + rewrite <- sortBy_perm. symmetry. apply fill_perm. exact L.
Qed.
Lemma mapi_spec : forall ev acn l i vs, length vs = length (filter isN l) ->
  exists out, mapi ev acn i (fill l vs) = Some out /\ map (fun y => (Name y, Some (definitionValue y))) out = fill l vs.
Proof.
  intros ev acn. induction l as [|[n [v|]] l IH]; intros i vs L; cbn [fill filter isN snd] in *.
  - exists []. auto.
  - destruct (IH (i + 1) vs L) as (out & E & M). cbn [mapi mapItem snd fst]. rewrite E. eexists. split; [reflexivity|].
    cbn [map Name definitionValue]. rewrite M. reflexivity.
  - destruct vs as [|w vs]; [discriminate|]. cbn [length] in L. destruct (IH (i + 1) vs ltac:(lia)) as (out & E & M).
    cbn [mapi mapItem snd fst]. rewrite E. eexists. split; [reflexivity|]. cbn [map Name definitionValue]. rewrite M. reflexivity.
Qed.
Definition pairs (out : list named) := map (fun y => (Name y, definitionValue y)) out.
Lemma numbered_fill : forall e items vs k out, length vs = length (filter isN items) -> frees e k vs ->
  map (fun y : named => (Name y, Some (definitionValue y))) out = fill items vs -> numbered e k items (pairs out).
Proof.
  intros e. induction items as [|[n [v|]] items IH]; intros vs k out L F E; cbn [fill filter isN snd] in *.
  - destruct out; [exact I|discriminate].
  - destruct out as [|y out]; [discriminate|]. cbn [map] in E. apply (f_equal (fun l => (hd (String.EmptyString, None) l, tl l))) in E. cbn [hd tl] in E.
    assert (E1 := f_equal fst E). assert (E2 := f_equal snd E). cbn [fst snd] in E1, E2.
    assert (E3 := f_equal fst E1). assert (E4 := f_equal snd E1). cbn [fst snd] in E3, E4.
    cbn [pairs map numbered]. split; [exact E3|]. split; [congruence|]. eapply IH; eauto.
  - destruct vs as [|w vs]; [discriminate|]. cbn [length frees] in *. destruct F as [F1 F2].
    destruct out as [|y out]; [discriminate|]. cbn [map] in E. apply (f_equal (fun l => (hd (String.EmptyString, None) l, tl l))) in E. cbn [hd tl] in E.
    assert (E1 := f_equal fst E). assert (E2 := f_equal snd E). cbn [fst snd] in E1, E2.
    assert (E3 := f_equal fst E1). assert (E4 := f_equal snd E1). cbn [fst snd] in E3, E4.
    cbn [pairs map numbered]. split; [exact E3|]. split; [|eapply IH; eauto; lia].
    replace (definitionValue y) with w by congruence. exact F1.
Qed.
Lemma frees_notin : forall e vs k v, frees e k vs -> In v vs -> ~ In v e.
Proof. intros e. induction vs as [|x vs IH]; intros k v F I; [destruct I|]. destruct F as [F1 F2]. destruct I as [->|I]; [apply F1|eapply IH; eauto]. Qed.
Lemma fill_given : forall items vs, length vs = length (filter isN items) -> Permutation (given (fill items vs)) (given items ++ vs).
Proof.
  induction items as [|[n [v|]] items IH]; intros vs L; cbn [fill filter isN snd] in *.
  - destruct vs; [constructor|discriminate].
  - unfold given. cbn [flat_map snd app]. constructor. apply IH. exact L.
  - destruct vs as [|w vs]; [discriminate|]. cbn [length] in L. unfold given. cbn [flat_map snd app].
    rewrite <- Permutation_middle. constructor. apply IH. lia.
Qed.
Lemma sorted_nodup : forall l, StronglySorted Z.lt l -> NoDup l.
Proof. intros l S. induction S as [|x l S IH F]; constructor; [|exact IH]. intros I. rewrite Forall_forall in F. specialize (F x I). lia. Qed.
Lemma given_out : forall out, given (map (fun y : named => (Name y, Some (definitionValue y))) out) = map definitionValue out.
Proof. unfold given. induction out as [|y out IH]; [reflexivity|]. cbn [map flat_map snd app]. rewrite IH. reflexivity. Qed.
Theorem values : forall ev acn (items : list item), NoDup (map fst items) -> NoDup (given items) ->
  exists out, enum_items ev acn items = Some out /\ numbered (given items) 0 items (pairs out) /\ NoDup (map definitionValue out).
Proof.
  intros ev acn items ND NG. destruct (allocated_spec items ND) as (vs & E & L & F & SO).
  unfold enum_items. rewrite E. destruct (mapi_spec ev acn items 0 vs L) as (out & M & P). exists out. split; [exact M|]. split.
  - eapply numbered_fill; eauto.
  - rewrite <- given_out, P. eapply Permutation_NoDup; [symmetry; apply fill_given; exact L|].
    apply sorted_nodup in SO. assert (D : forall v, In v vs -> ~ In v (given items)) by (intros; eapply frees_notin; eauto).
    clear - NG SO D. induction (given items) as [|x g IH]; [exact SO|]. inversion NG; subst. cbn [app]. constructor.
    + intros I. apply in_app_or in I. destruct I as [I|I]; [auto|]. apply (D x I). left. reflexivity.
    + apply IH; [assumption|]. intros v Hv C. apply (D v Hv). right. exact C.
Qed.
(** The codes of the ACN file *)
Theorem codes : forall ev acn items out, enum_items ev acn items = Some out ->
  forall i y, nth_error out i = Some y ->
    acnEncodeValue y = if ev then match find (fun z => String.eqb (fst z) (Name y)) acn with Some (_, Some v) => v | _ => definitionValue y end
                       else Z.of_nat i.
Proof.
  intros ev acn items out H. unfold enum_items in H. destruct (allocatedValuesToAllEnumItems items) as [l|]; [|discriminate].
  assert (G : forall l out k, mapi ev acn k l = Some out -> forall i y, nth_error out i = Some y ->
    acnEncodeValue y = if ev then match find (fun z => String.eqb (fst z) (Name y)) acn with Some (_, Some v) => v | _ => definitionValue y end
                       else k + Z.of_nat i).
  { clear. induction l as [|[n v] l IH]; intros out k H i y N.
    - cbn [mapi] in H. assert (out = []) by congruence. subst. destruct i; discriminate.
    - cbn [mapi] in H. destruct (mapItem ev acn k (n, v)) as [z|] eqn:Z; [|discriminate]. destruct (mapi ev acn (k + 1) l) as [r|] eqn:R; [|discriminate].
      assert (out = z :: r) by congruence. subst out. destruct i as [|i].
      + cbn [nth_error] in N. assert (z = y) by congruence. subst z. unfold mapItem in Z. cbn [snd fst] in Z. destruct v as [v|]; [|discriminate].
        assert (y = mknamed n v (if ev then match find (fun z => String.eqb (fst z) n) acn with Some (_, Some w) => w | _ => v end else k)) by congruence.
        subst y. cbn [acnEncodeValue Name definitionValue]. destruct ev; [reflexivity|lia].
      + cbn [nth_error] in N. rewrite (IH r (k + 1) R i y N). destruct ev; [reflexivity|lia]. }
  intros i y N. rewrite (G l out 0 H i y N). destruct ev; [reflexivity|lia].
Qed.
(** The arguments of the generated code *)
Theorem table : forall ev acn (items : list item) out threshold, NoDup (map fst items) -> NoDup (given items) -> items <> [] ->
  Z.of_nat (length items) < 2 ^ 31 -> enum_items ev acn items = Some out ->
  wf_enum (fst (enum_table threshold out)) (snd (enum_table threshold out)).
Proof.
  intros ev acn items out th ND NG NE LL H. destruct (values ev acn items ND NG) as (out' & H' & NU & NV).
  assert (out' = out) by congruence. subst out'.
  assert (LE : length out = length items).
  { clear - NU. unfold pairs in NU. revert NU. generalize 0%nat as k. generalize (given items) as e. intros e.
    revert out. induction items as [|[n [v|]] items IH]; intros [|y out] k NU; cbn [map numbered length] in *; try reflexivity; try contradiction.
    - f_equal. eapply IH. apply NU.
    - f_equal. eapply IH. apply NU. }
  unfold enum_table. cbn [fst snd]. split; [|split; [exact NV|split]].
  - destruct out; [|discriminate]. destruct items; [congruence|discriminate].
  - rewrite map_length, LE. exact LL.
  - destruct (th <=? Z.of_nat (length out)); [|exact I].
    pose proof (sortBy_perm definitionValue out) as P. pose proof (Permutation_map definitionValue P) as PM. split; [|split].
    + pose proof (sortBy_sorted definitionValue out) as S. pose proof (Permutation_NoDup PM NV) as N.
      clear - S N. induction S as [|x l S IH F]; cbn [map] in *; constructor.
      * apply IH. inversion N; assumption.
      * rewrite Forall_forall in *. intros z Hz. apply in_map_iff in Hz. destruct Hz as (w & <- & Hw). specialize (F w Hw).
        unfold kle in F. inversion N as [|? ? NI _]; subst. assert (definitionValue x <> definitionValue w); [|lia].
        intros C. apply NI. rewrite C. apply in_map. exact Hw.
    + rewrite !map_length. symmetry. apply Permutation_length. exact P.
    + intros x. split; [apply Permutation_in; exact PM|apply Permutation_in; symmetry; exact PM].
Qed.
