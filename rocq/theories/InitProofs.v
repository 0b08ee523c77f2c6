(** Proofs about the generated _Initialize functions. *)
From Coq Require Import ZifyBool ZifyNat.
From Verif Require Import Base Bits UperTypes ConSpec Constraints ConstraintsProofs Init InitSpec.
Ltac Zify.zify_post_hook ::= Z.div_mod_to_equations.

Lemma fold_and : forall {A} (f : A -> bool) l b, fold_left (fun s c => s && f c) l b = b && forallb f l.
Proof.
  intros A f l. induction l as [|x l IH]; intros b; cbn; [now rewrite andb_true_r|].
  rewrite IH. now rewrite andb_assoc.
Qed.
Lemma forallb_ext' : forall {A} (f g : A -> bool) l, (forall x, f x = g x) -> forallb f l = forallb g l.
Proof. intros A f g l H. induction l; cbn; congruence. Qed.
Lemma distinct_from_In : forall x l seen, In x (distinct_from seen l) -> In x l.
Proof.
  intros x l. induction l as [|y l IH]; intros seen H; cbn in *; auto.
  destruct (mem y seen); [right; eauto|]. destruct H; auto. right. eauto.
Qed.

(** * INTEGER *)
Lemma eval_range : forall c x, evalRangeCon c x = sat_int c x.
Proof.
  intros c x. unfold sat_int. induction c; cbn; try congruence.
  destruct a; cbn; unfold upTo, below; auto. apply Z.eqb_sym.
Qed.
Lemma valid_ranged : forall cs x, isValidValueRanged cs x = forallb (fun c => sat_int c x) cs.
Proof.
  intros. unfold isValidValueRanged. rewrite fold_and. cbn. apply forallb_ext'. intros. apply eval_range.
Qed.
Fixpoint atoms {A} (c : con A) : list A :=
  match c with
  | Union c1 c2 | Inter c1 c2 | Root2 c1 c2 | Except c1 c2 => atoms c1 ++ atoms c2
  | Root c | AllExcept c => atoms c
  | Atom a => [a]
  end.
(** The least value of the C type permitted by an atom. *)
Definition low (p : bool) (a : atom) : Z :=
  match a with
  | Val v => v
  | Rng a _ ai _ | Ge a ai => if ai then a else getNext p a
  | Le _ _ => IntMin p
  end.
Lemma low_cand : forall p c a, no_except c = true -> In a (atoms c) -> In (low p a) (foldRangeCon p c).
Proof.
  intros p c a. induction c; cbn; intros N H; try discriminate; try (apply andb_prop in N as [N1 N2]);
    try (apply in_app_or in H; apply in_or_app; tauto); auto.
  destruct H as [->|[]]. destruct a; cbn; auto.
Qed.
Lemma mono : forall (p q : atom -> bool) c, no_except c = true -> (forall a, In a (atoms c) -> p a = true -> q a = true) ->
  sat p c = true -> sat q c = true.
Proof.
  intros p q c. induction c; cbn; intros N H S; try discriminate; try (apply andb_prop in N as [N1 N2]).
  - apply orb_prop in S as [S|S]; [rewrite IHc1|rewrite IHc2]; auto using orb_true_r; intros; apply H; auto using in_or_app.
  - apply andb_prop in S as [S1 S2]. rewrite IHc1, IHc2; auto; intros; apply H; auto using in_or_app.
  - auto.
  - apply orb_prop in S as [S|S]; [rewrite IHc1|rewrite IHc2]; auto using orb_true_r; intros; apply H; auto using in_or_app.
  - auto.
Qed.
Lemma some_atom : forall (p : atom -> bool) c, no_except c = true -> sat p c = true -> exists a, In a (atoms c) /\ p a = true.
Proof.
  intros p c. induction c; cbn; intros N S; try discriminate; try (apply andb_prop in N as [N1 N2]).
  - apply orb_prop in S as [S|S]; [destruct (IHc1 N1 S) as (a & H & P)|destruct (IHc2 N2 S) as (a & H & P)]; exists a; auto using in_or_app.
  - apply andb_prop in S as [S1 S2]. destruct (IHc1 N1 S1) as (a & H & P). exists a; auto using in_or_app.
  - auto.
  - apply orb_prop in S as [S|S]; [destruct (IHc1 N1 S) as (a & H & P)|destruct (IHc2 N2 S) as (a & H & P)]; exists a; auto using in_or_app.
  - eauto.
Qed.
Lemma each_atoms : forall {A} (f : A -> bool) c, each f c = true -> forall a, In a (atoms c) -> f a = true.
Proof.
  intros A f c. induction c; cbn; intros E a' H; try (apply andb_prop in E as [E1 E2]; apply in_app_or in H as [H|H]; auto); auto.
  destruct H as [<-|[]]; auto.
Qed.
Lemma max_of : forall (l : list Z), l <> [] -> exists m, In m l /\ forall y, In y l -> y <= m.
Proof.
  induction l as [|x l IH]; [congruence|]. intros _. destruct l as [|y l].
  - exists x. split; [now left|]. intros z [<-|[]]. lia.
  - destruct IH as (m & I & M); [congruence|]. destruct (Z.le_gt_cases x m).
    + exists m. split; [now right|]. intros z [<-|Z]; auto.
    + exists x. split; [now left|]. intros z [<-|Z]; [lia|]. apply M in Z. lia.
Qed.
(** Between the lower end of an atom that permits x and x, everything is permitted. *)
Lemma low_le : forall p a x, bounds_ok p a = true -> bound_ok p x = true -> sat_atom x a = true -> low p a <= x.
Proof.
  intros p a x B X S. unfold bound_ok in X.
  destruct a; cbn in *; unfold bound_ok, getNext, IntMin, IntMax, below in *; destruct p; try destruct ai; try lia;
    match goal with |- context [if ?b then _ else _] => destruct b eqn:? end; lia.
Qed.
Lemma low_sat : forall p a x y, bounds_ok p a = true -> bound_ok p x = true -> sat_atom x a = true ->
  low p a <= y <= x -> sat_atom y a = true.
Proof.
  intros p a x y B X S L. unfold bound_ok in X.
  destruct a; cbn in *; unfold bound_ok, getNext, IntMin, IntMax, below in *; destruct p;
    repeat match goal with H : context [if ?b then _ else _] |- _ => destruct b eqn:? end; lia.
Qed.
Lemma low_bound : forall p a, bounds_ok p a = true -> bound_ok p (low p a) = true.
Proof.
  intros p a B. destruct a; cbn in *; unfold bound_ok, getNext, IntMin, IntMax in *; destruct p;
    repeat match goal with |- context [if ?b then _ else _] => destruct b eqn:? end; try lia.
Qed.
Lemma init_int_valid : forall p cs x, forallb no_except cs = true -> forallb (each (bounds_ok p)) cs = true ->
  bound_ok p x = true -> forallb (fun c => sat_int c x) cs = true ->
  bound_ok p (init_int p cs) = true /\ forallb (fun c => sat_int c (init_int p cs)) cs = true.
Proof.
  intros p cs x N B X S. unfold init_int. rewrite valid_ranged.
  destruct (forallb (fun c => sat_int c 0) cs) eqn:Z0.
  { split; auto. destruct p; reflexivity. }
  rewrite forallb_forall in N, B, S.
  pose (l := filter (sat_atom x) (flat_map atoms cs)).
  assert (L : exists m, In m (map (low p) l) /\ forall y, In y (map (low p) l) -> y <= m).
  { apply max_of. destruct cs as [|c cs]; [discriminate|].
    destruct (some_atom (sat_atom x) c) as (a & I & P); [apply N; now left|apply (S c); now left|].
    assert (In a l) by (apply filter_In; split; [apply in_flat_map; exists c; split; [now left|auto]|auto]).
    intros E. apply map_eq_nil in E. rewrite E in H. destruct H. }
  destruct L as (m & I & M). apply in_map_iff in I as (a0 & E & I0).
  apply filter_In in I0 as [I0 P0]. apply in_flat_map in I0 as (c0 & C0 & A0).
  assert (B0 : bounds_ok p a0 = true) by (eapply each_atoms; eauto).
  assert (MX : m <= x) by (subst m; now apply low_le).
  assert (V : forallb (fun c => sat_int c m) cs = true).
  { apply forallb_forall. intros c I. apply (mono (sat_atom x)); [auto| |apply S, I].
    intros a Ia Pa. assert (Ba : bounds_ok p a = true) by (eapply each_atoms; eauto).
    apply (low_sat p a x); auto. split; [|auto]. apply M, in_map. apply filter_In. split; [|auto].
    apply in_flat_map. eauto. }
  assert (K : In m (filter (isValidValueRanged cs) (distinct (flat_map (foldRangeCon p) cs)))).
  { apply filter_In. split; [|now rewrite valid_ranged]. apply distinct_In. apply in_flat_map.
    exists c0. split; auto. subst m. apply low_cand; auto. }
  unfold IntegerAutomaticTestCaseValues. destruct cs as [|c cs]; [discriminate|].
  destruct (filter (isValidValueRanged (c :: cs)) (distinct (flat_map (foldRangeCon p) (c :: cs)))) as [|y k] eqn:F; [destruct K|].
  assert (Y : In y (filter (isValidValueRanged (c :: cs)) (distinct (flat_map (foldRangeCon p) (c :: cs))))) by (rewrite F; now left).
  apply filter_In in Y as [Y1 Y2]. rewrite valid_ranged in Y2. split; auto.
  apply (proj1 (distinct_In _ _)) in Y1. apply in_flat_map in Y1 as (c1 & C1 & Y1). clear - B C1 Y1.
  pose proof (B c1 C1) as Bc. pose proof (each_atoms _ _ Bc) as Ba. clear - Ba Y1.
  induction c1; cbn in *; try contradiction.
  1,2,5: apply in_app_or in Y1 as [Y1|Y1]; [apply IHc1_1|apply IHc1_2]; auto using in_or_app.
  - apply IHc1_1; auto using in_or_app.
  - auto.
  - specialize (Ba a (or_introl eq_refl)).
    destruct a; cbn in *; unfold bound_ok, getNext, getPrev, IntMin, IntMax in *; destruct p;
      repeat match goal with H : context [if ?b then _ else _] |- _ => destruct b eqn:? end; lia.
Qed.

(** * BOOLEAN, ENUMERATED *)
Lemma eval_generic : forall {V} (eqf eqg : V -> V -> bool) c x, (forall a b, eqf a b = eqg b a) ->
  evalGenericCon eqf c x = sat (eqg x) c.
Proof. intros V eqf eqg c x H. induction c; cbn; congruence. Qed.
Lemma valid_generic : forall {V} (eqf eqg : V -> V -> bool) cs x, (forall a b, eqf a b = eqg b a) ->
  isValidValueGeneric eqf cs x = forallb (sat (eqg x)) cs.
Proof.
  intros. unfold isValidValueGeneric. rewrite fold_and. cbn. apply forallb_ext'. intros. now apply eval_generic.
Qed.
Lemma eqb_sym' : forall a b, Bool.eqb a b = Bool.eqb b a.
Proof. now intros [] []. Qed.
Lemma init_bool_valid : forall cs b, forallb (sat (Bool.eqb b)) cs = true -> forallb (sat (Bool.eqb (init_bool cs))) cs = true.
Proof.
  intros cs b H. unfold init_bool. rewrite (valid_generic _ Bool.eqb cs false eqb_sym').
  destruct (forallb (sat (Bool.eqb false)) cs) eqn:E; cbn; auto. destruct b; congruence.
Qed.
Lemma mem_In' : forall x l, mem x l = true <-> In x l.
Proof. intros. apply mem_In. Qed.
Lemma init_enum_valid : forall items cs x, In x items -> forallb (sat (Z.eqb x)) cs = true ->
  exists y, init_enum items cs = Some y /\ In y items /\ forallb (sat (Z.eqb y)) cs = true.
Proof.
  intros items cs x I S. unfold init_enum, enum_cases. destruct cs as [|c cs].
  - destruct items as [|y items]; [destruct I|]. exists y. repeat split. now left.
  - assert (K : In x (filter (isValidValueGeneric Z.eqb (c :: cs)) items)).
    { apply filter_In. split; auto. rewrite (valid_generic _ Z.eqb); auto. intros; apply Z.eqb_sym. }
    destruct (filter _ items) as [|y k] eqn:F; [destruct K|].
    assert (Y : In y (filter (isValidValueGeneric Z.eqb (c :: cs)) items)) by (rewrite F; now left).
    apply filter_In in Y as [Y1 Y2]. rewrite (valid_generic _ Z.eqb) in Y2 by (intros; apply Z.eqb_sym).
    exists y. auto.
Qed.

(** * Sizes *)
Lemma closed_range : forall a, closed a = true -> exists lo hi, atom_range (fun x => u32 (x + 1)) (fun x => u32 (x - 1)) a = Concrete lo hi /\
  0 <= lo <= hi /\ forall n, sat_atom n a = true <-> lo <= n <= hi.
Proof.
  intros a C. destruct a; cbn in *; try discriminate.
  - exists v, v. split; [reflexivity|]. split; [lia|]. intros. lia.
  - destruct ai, bi; try discriminate. exists a, b. split; [reflexivity|]. split; [lia|]. intros. unfold below. lia.
Qed.
Lemma union_range : forall c, union_of_closed c = true -> exists lo hi, size_range c = Some (Concrete lo hi) /\
  0 <= lo <= hi /\ sat_int c lo = true /\ sat_int c hi = true.
Proof.
  unfold size_range, sat_int. induction c; cbn; intros U; try discriminate.
  - apply andb_prop in U as [U1 U2].
    destruct (IHc1 U1) as (l1 & h1 & E1 & L1 & A1 & B1). destruct (IHc2 U2) as (l2 & h2 & E2 & L2 & A2 & B2).
    rewrite E1, E2. cbn. exists (Z.min l1 l2), (Z.max h1 h2). split; [reflexivity|]. split; [lia|].
    split; apply orb_true_intro.
    + destruct (Z.min_spec l1 l2) as [[_ ->]|[_ ->]]; auto.
    + destruct (Z.max_spec h1 h2) as [[_ ->]|[_ ->]]; auto.
  - destruct (closed_range a U) as (lo & hi & E & L & S). rewrite E. exists lo, hi. repeat split; try lia; apply S; lia.
Qed.
Lemma atoms_range : forall l n a0 b0, 0 <= a0 <= n -> n <= b0 ->
  Forall (fun c => exists a, c = Atom a /\ closed a = true) l -> Forall (fun c => sat_int c n = true) l ->
  exists a b, fold_ranges size_range (Concrete a0 b0) l = Some (Concrete a b) /\ a0 <= a <= n /\ n <= b <= b0 /\
    forall m, a <= m <= b -> Forall (fun c => sat_int c m = true) l.
Proof.
  induction l as [|c l IH]; cbn [fold_ranges]; intros n a0 b0 A B F S.
  - exists a0, b0. repeat split; auto; lia.
  - inversion F as [|? ? (a & -> & C) F']; subst. inversion S as [|? ? S1 S']; subst.
    destruct (closed_range a C) as (lo & hi & E & L & Q). unfold size_range at 1. cbn [range_of obind]. rewrite E.
    assert (N : lo <= n <= hi) by (now apply Q).
    assert (I : exists a1 b1, uperIntersection (Concrete a0 b0) (Concrete lo hi) = Some (Concrete a1 b1) /\
                  a1 = Z.max a0 lo /\ b1 = Z.min b0 hi).
    { cbn. repeat match goal with |- context [if ?b then _ else _] => destruct b eqn:? end;
        try (do 2 eexists; split; [reflexivity|]; lia). exfalso. lia. }
    destruct I as (a1 & b1 & I & -> & ->). rewrite I. cbn [obind].
    destruct (IH n (Z.max a0 lo) (Z.min b0 hi)) as (a' & b' & H1 & H2 & H3 & H4); auto; try lia.
    exists a', b'. split; [exact H1|]. split; [lia|]. split; [lia|].
    intros m M. constructor; auto. apply Q. lia.
Qed.
Lemma sizes_range : forall l, sizes_ok l -> exists a b, fold_ranges size_range Full l = Some (Concrete a b) /\
  0 <= a <= b /\ Forall (fun c => sat_int c a = true) l /\ Forall (fun c => sat_int c b = true) l.
Proof.
  intros l [(c & -> & U)|(N & F & n & S)].
  - destruct (union_range c U) as (lo & hi & E & L & A & B). exists lo, hi. cbn. rewrite E. cbn. auto 10.
  - destruct l as [|c l]; [congruence|].
    inversion F as [|? ? (a & -> & C) F']; subst. inversion S as [|? ? S1 S']; subst.
    destruct (closed_range a C) as (lo & hi & E & L & Q). cbn [fold_ranges]. unfold size_range at 1. cbn [range_of obind]. rewrite E.
    cbn [uperIntersection obind]. assert (M : lo <= n <= hi) by (now apply Q).
    destruct (atoms_range l n lo hi) as (a' & b' & H1 & H2 & H3 & H4); auto; try lia.
    exists a', b'. split; [exact H1|]. split; [lia|].
    split; (constructor; [apply Q; lia|apply H4; lia]).
Qed.
Lemma fold_ranges_map : forall {A B} (f : B -> option range) (g : A -> B) l s,
  fold_ranges f s (map g l) = fold_ranges (fun x => f (g x)) s l.
Proof.
  intros A B f g l. induction l as [|x l IH]; intros s; cbn; auto.
  destruct (f (g x)); cbn; auto. destruct (uperIntersection s r); cbn; auto.
Qed.
Lemma sized_valid : forall {V} (z : V) (eqv : list V -> list V -> bool) l, sizes_ok l ->
  let cs := map (fun c => Atom (Size c)) l in
  exists a, init_sized z cs = Some (repeat z a) /\ forallb (sat (sat_szatom eqv len (repeat z a))) cs = true.
Proof.
  intros V z eqv l S cs. destruct (sizes_range l S) as (a & b & E & L & A & B).
  exists (Z.to_nat a). unfold init_sized, getSizeableUperRange, cs. rewrite fold_ranges_map.
  unfold sz_range. cbn [range_of]. change (fun x : icon => size_range x) with size_range. rewrite E. cbn.
  assert (N : flat_map getValueFromSizeableConstraint (map (fun c => Atom (Size c)) l) = (@nil (list V))).
  { clear. induction l; cbn; auto. }
  rewrite N. split; [reflexivity|]. apply forallb_forall. intros c I. apply in_map_iff in I as (k & <- & I). cbn.
  rewrite Forall_forall in A. unfold len. rewrite repeat_length, Z2Nat.id by lia. auto.
Qed.

(** * Strings *)
Lemma str_sizes_range : forall cs s, Forall str_form cs -> s = Full \/ (exists a b, s = Concrete a b) ->
  forall r, fold_ranges size_range s (str_sizes cs) = Some r -> (forall c r', In c (str_sizes cs) -> size_range c = Some r' -> exists a b, r' = Concrete a b) ->
  fold_ranges str_size_range s cs = Some r.
Proof.
  induction cs as [|c cs IH]; intros s F S r H Q; [exact H|].
  inversion F as [|? ? F1 F2]; subst. destruct c; try contradiction. destruct a; try contradiction.
  - cbn in *. unfold str_size_range at 1. cbn [range_of]. destruct (size_range c) as [q|] eqn:E; [|discriminate].
    cbn [obind] in *. destruct (uperIntersection s q) as [s'|] eqn:I; [|discriminate]. cbn [obind] in *.
    apply IH; [auto| |auto|intros c' r' I' E'; apply (Q c' r'); auto; now right]. destruct (Q c q (or_introl eq_refl) E) as (a & b & ->).
    destruct S as [->|(a0 & b0 & ->)]; cbn in I.
    + injection I as <-. eauto.
    + repeat match type of I with context [if ?b then _ else _] => destruct b eqn:? end; try discriminate; injection I as <-; eauto.
  - cbn in *. unfold str_size_range at 1. cbn [range_of obind].
    assert (I : uperIntersection s Full = Some s) by (destruct S as [->|(a & b & ->)]; reflexivity).
    rewrite I. cbn [obind]. apply IH; auto.
Qed.
Lemma sizes_ok_concrete : forall l c r, sizes_ok l -> In c l -> size_range c = Some r -> exists a b, r = Concrete a b.
Proof.
  intros l c r [(k & -> & U)|(N & F & _)] I E.
  - destruct I as [->|[]]. destruct (union_range c U) as (lo & hi & E' & _). rewrite E in E'. injection E' as ->. eauto.
  - rewrite Forall_forall in F. destruct (F c I) as (a & -> & C). destruct (closed_range a C) as (lo & hi & E' & _).
    unfold size_range in E. cbn in E. rewrite E' in E. injection E as <-. eauto.
Qed.
Lemma alpha_exact_list : forall d cs l0 l x, canonical d -> Forall str_form cs -> (forall y, In y l0 -> In y d) ->
  fold_chars d l0 cs = Some l -> (In x l <-> In x l0 /\ Forall (str_char_ok x) cs).
Proof.
  intros d. induction cs as [|c cs IH]; cbn; intros l0 l x C F D H.
  - injection H as <-. intuition.
  - inversion F as [|? ? F1 F2]; subst.
    destruct (str_chars d c) as [r|] eqn:R; [|discriminate]. cbn [obind] in H.
    destruct (IntersectArrays l0 r) as [l1|] eqn:I; [|discriminate]. cbn [obind] in H.
    assert (D1 : forall y, In y l1 -> In y d) by (intros y Y; apply D; eapply intersect_In in Y; [|eauto]; tauto).
    rewrite (IH l1 l x C F2 D1 H). rewrite (intersect_In _ _ _ x I).
    rewrite Forall_cons_iff.
    assert (K : In x d -> (In x r <-> str_char_ok x c)).
    { intros X. destruct c; try contradiction. destruct a; try contradiction; cbn in R.
      - injection R as <-. cbn. tauto.
      - eapply char_exact; eauto. }
    split.
    + intros [[X R'] P]. pose proof (K (D x X)). tauto.
    + intros [X [P1 P2]]. pose proof (K (D x X)). tauto.
Qed.
Lemma find_first : forall l x, In x l -> 32 <= x <= 126 -> 32 <= first_char l <= 126 /\ In (first_char l) l.
Proof.
  intros l x I X. unfold first_char. destruct (find _ l) as [c|] eqn:E.
  - apply find_some in E as [E1 E2]. split; auto. lia.
  - apply find_none with (x := x) in E; auto. lia.
Qed.
Lemma str_valid : forall d cs, canonical d -> Forall str_form cs -> sizes_ok (str_sizes cs) ->
  getSrtingAlphaUperRange d cs <> None -> (exists ch, In ch d /\ 32 <= ch <= 126 /\ Forall (str_char_ok ch) cs) ->
  exists s, init_str d cs = Some s /\ forallb (fun ch => mem ch d && negb (ch =? 0)) s = true /\ forallb (fun c => sat_str c s) cs = true.
Proof.
  intros d cs C F S A (ch & D & P & K).
  destruct (sizes_range _ S) as (a & b & E & L & SA & SB).
  destruct (getSrtingAlphaUperRange d cs) as [l|] eqn:G; [|congruence].
  assert (ER : getStringSizeUperRange cs = Some (Concrete a b)).
  { apply str_sizes_range; auto. intros c r' I R. eapply sizes_ok_concrete; eauto. }
  unfold init_str. rewrite ER, G. cbn [size_ends obind getSizeMinAndMaxValue].
  assert (X : forall x, In x l <-> In x d /\ Forall (str_char_ok x) cs) by (intros; eapply alpha_exact_list; eauto).
  destruct (find_first l ch) as [P1 P2]; [now apply X|auto|]. apply X in P2 as [P2 P3].
  destruct (first_char l =? 0) eqn:Z0; [lia|].
  eexists. split; [reflexivity|]. split.
  - apply forallb_forall. intros y Y. apply repeat_spec in Y. subst y. rewrite (proj2 (mem_In' _ _) P2). cbn. lia.
  - apply forallb_forall. intros c I. rewrite Forall_forall in F, P3. specialize (F c I). specialize (P3 c I).
    destruct c; try contradiction. destruct a0; try contradiction; unfold sat_str; cbn.
    + rewrite repeat_length, Z2Nat.id by lia. rewrite Forall_forall in SB. apply SB.
      apply in_flat_map. eexists. split; [exact I|]. now left.
    + apply forallb_forall. intros y Y. apply repeat_spec in Y. subst y. exact P3.
Qed.

(** * All types *)
Section Ind.
  Variable P : nty -> Prop.
  Hypothesis HInt : forall p w cs, P (NInt p w cs).
  Hypothesis HBool : forall cs, P (NBool cs).
  Hypothesis HEnum : forall items cs, P (NEnum items cs).
  Hypothesis HNull : P NNull.
  Hypothesis HOid : P NOid.
  Hypothesis HStr : forall d cs, P (NStr d cs).
  Hypothesis HOct : forall cs, P (NOct cs).
  Hypothesis HBit : forall cs, P (NBit cs).
  Hypothesis HSeqOf : forall cs t, P t -> P (NSeqOf cs t).
  Hypothesis HSeq : forall cs fs, Forall (fun f => P (snd f)) fs -> P (NSeq cs fs).
  Hypothesis HChoice : forall cs ts, Forall P ts -> P (NChoice cs ts).
  Hypothesis HCall : forall cs t, P t -> P (NCall cs t).
  Fixpoint nty_ind' (t : nty) : P t :=
    match t with
    | NInt p w cs => HInt p w cs
    | NBool cs => HBool cs
    | NEnum i cs => HEnum i cs
    | NNull => HNull
    | NOid => HOid
    | NStr d cs => HStr d cs
    | NOct cs => HOct cs
    | NBit cs => HBit cs
    | NSeqOf cs t => HSeqOf cs t (nty_ind' t)
    | NSeq cs fs =>
        HSeq cs fs ((fix go (fs : list (nopt * nty)) : Forall (fun f => P (snd f)) fs :=
          match fs with [] => Forall_nil _ | f :: fs => Forall_cons f (nty_ind' (snd f)) (go fs) end) fs)
    | NChoice cs ts =>
        HChoice cs ts ((fix go (ts : list nty) : Forall P ts :=
          match ts with [] => Forall_nil _ | t :: ts => Forall_cons t (nty_ind' t) (go ts) end) ts)
    | NCall cs t => HCall cs t (nty_ind' t)
    end.
End Ind.

Lemma byval_same : forall t, no_var_bits t -> forall v, byval t v = v.
Proof.
  induction t using nty_ind'; cbn [byval no_var_bits]; intros N v; auto.
  - destruct v; auto. destruct N as (n & E). unfold var_bits. rewrite E. cbn. now rewrite Z.eqb_refl.
  - destruct v; auto. f_equal. rewrite <- (map_id l) at 2. apply map_ext. auto.
  - destruct v as [| | | | | | | | | |l| |]; auto. f_equal. revert l. induction H as [|[o t] fs P F IH]; intros l; auto.
    destruct N as [N1 N2]. destruct l as [|[e w] l]; auto. rewrite IH by auto. destruct w; cbn; [|auto]. cbn in P. now rewrite P.
  - destruct v as [| | | | | | | | | | |i w|]; auto. f_equal. revert i. induction H as [|t ts P F IH]; intros i; auto.
    destruct N as [N1 N2]. destruct i; auto.
Qed.

Lemma full_r : forall s, uperIntersection s Full = Some s.
Proof. now destruct s. Qed.
Lemma sq_sizes_range : forall p cs s, Forall (sq_form p) cs ->
  fold_ranges sq_range s cs = fold_ranges size_range s (sq_sizes cs).
Proof.
  intros p cs. induction cs as [|c cs IH]; intros s F; cbn; auto. inversion F as [|? ? Fc Fs]; subst.
  destruct c as [| | | | | |x]; try contradiction. destruct x as [x|k|k]; try contradiction; cbn.
  - unfold sq_range. cbn [range_of]. destruct (size_range k); cbn; auto. destruct (uperIntersection s r); cbn; auto.
  - unfold sq_range. cbn [range_of obind]. rewrite (full_r s). cbn [obind]. auto.
Qed.
Lemma init_valid : forall t, ready t -> exists v, init t = Some v /\ value_of t v = true.
Proof.
  induction t using nty_ind'; cbn [ready init]; intros R.
  - destruct R as (N & B & x & X & S). destruct (init_int_valid p cs x N B X S) as [V1 V2].
    eexists. split; [reflexivity|]. cbn [value_of]. unfold bound_ok in V1. rewrite V1, V2. reflexivity.
  - destruct R as (b & S). eexists. split; [reflexivity|]. cbn [value_of]. eapply init_bool_valid; eauto.
  - destruct R as (x & I & S). destruct (init_enum_valid items cs x I S) as (y & E & Y & V). rewrite E.
    eexists. split; [reflexivity|]. cbn [value_of]. rewrite (proj2 (mem_In' _ _) Y). auto.
  - eauto.
  - contradiction.
  - destruct R as (C & F & S & A & K). destruct (str_valid d cs C F S A K) as (s & E & V1 & V2). rewrite E.
    eexists. split; [reflexivity|]. cbn [value_of]. now rewrite V1, V2.
  - destruct R as (l & -> & S). destruct (sized_valid 0 eqs l S) as (a & E & V). rewrite E.
    eexists. split; [reflexivity|]. cbn [value_of]. rewrite V, andb_true_r. apply forallb_forall. intros x X.
    apply repeat_spec in X. now subst.
  - destruct R as (l & -> & S). destruct (sized_valid false (list_eqb Bool.eqb) l S) as (a & E & V). rewrite E.
    eexists. split; [reflexivity|]. exact V.
  - destruct R as ((F & S) & R). destruct (IHt R) as (v & E & V). destruct (sizes_range _ S) as (a & b & G & L & A & B).
    unfold getSequenceOfUperRange. rewrite (sq_sizes_range _ _ _ F), G.
    cbn [size_ends obind getSizeMinAndMaxValue]. rewrite E. cbn [obind].
    eexists. split; [reflexivity|]. cbn [value_of]. apply andb_true_intro. split; apply forallb_forall.
    + intros c I. rewrite Forall_forall in A, F. specialize (F c I). destruct c as [| | | | | |x]; try contradiction.
      destruct x as [x|k|k]; try contradiction.
      * cbn. unfold len. rewrite repeat_length, Z2Nat.id by lia. apply A. unfold sq_sizes. apply in_flat_map. eexists. split; [exact I|]. now left.
      * cbn. apply forallb_forall. intros x X. apply repeat_spec in X. subst. cbn in F. auto.
    + intros x X. apply repeat_spec in X. now subst.
  - destruct R as [-> R]. cbn [value_of].
    enough (K : exists l,
      (fix go (fs : list (nopt * nty)) : option (list (bool * option value)) :=
            match fs with
            | [] => Some []
            | (o, t) :: fs =>
                obind match o with
                      | NAlwaysAbsent => Some (false, None)
                      | NOptional (Some def) => Some (true, Some (byval t def))
                      | NOptional None | NRequired | NAlwaysPresent => option_map (fun v => (true, Some v)) (init t)
                      end (fun x => obind (go fs) (fun l => Some (x :: l)))
            end) fs = Some l /\
      forallb2 (fun (f : nopt * nty) (x : bool * option value) =>
        presence (fst f) (fst x) &&
        (negb (fst x) || match snd x with Some w => value_of (snd f) w | None => false end)) fs l = true).
    { destruct K as (l & -> & V). eexists. split; [reflexivity|]. cbn [value_of]. rewrite V. reflexivity. }
    induction H as [|[o t] fs P F IH]; [exists []; auto|]. destruct R as [R1 R2]. destruct (IH R2) as (l & -> & V). cbn [fst snd] in P.
    assert (D : ready t -> exists v, init t = Some v /\ value_of t v = true) by auto.
    destruct o as [|[def|]| |]; cbn [obind].
    + destruct (D R1) as (v & -> & W). cbn. eexists. split; [reflexivity|]. cbn. now rewrite W, V.
    + destruct R1 as [N W]. rewrite (byval_same t N). eexists. split; [reflexivity|]. cbn. now rewrite W, V.
    + destruct (D R1) as (v & -> & W). cbn. eexists. split; [reflexivity|]. cbn. now rewrite W, V.
    + eexists. split; [reflexivity|]. cbn. now rewrite V.
    + destruct (D R1) as (v & -> & W). cbn. eexists. split; [reflexivity|]. cbn. now rewrite W, V.
  - destruct R as [-> R]. destruct ts as [|t ts]; [contradiction|]. inversion H; subst.
    destruct H2 as (v & -> & W); auto. eexists. split; [reflexivity|]. cbn. now rewrite W.
  - destruct R as [-> R]. destruct (IHt R) as (v & -> & W). eexists. split; [reflexivity|]. cbn. now rewrite W.
Qed.
Lemma init_zero : forall p w cs, forallb (fun c => sat_int c 0) cs = true -> init (NInt p w cs) = Some (VInt 0).
Proof. intros p w cs H. cbn. unfold init_int. now rewrite valid_ranged, H. Qed.
Lemma init_int_or_zero : forall p cs, init_int p cs = 0 \/ forallb (fun c => sat_int c (init_int p cs)) cs = true.
Proof.
  intros p cs. unfold init_int. destruct (isValidValueRanged cs 0) eqn:E; [now left|].
  destruct (IntegerAutomaticTestCaseValues p cs) as [|x l] eqn:F; [now left|]. right.
  unfold IntegerAutomaticTestCaseValues in F. destruct cs as [|c cs]; [discriminate|].
  assert (X : In x (filter (isValidValueRanged (c :: cs)) (distinct (flat_map (foldRangeCon p) (c :: cs))))) by (rewrite F; now left).
  apply filter_In in X as [_ X]. now rewrite valid_ranged in X.
Qed.
Lemma ia5_canonical : canonical ia5_chars.
Proof.
  unfold ia5_chars, canonical. change 128%nat with (Z.to_nat 128). generalize O; induction (Z.to_nat 128) as [|n IH]; intros k; cbn; [constructor|].
  constructor; [apply IH|]. apply Forall_forall. intros x X. apply in_map_iff in X as (j & <- & J). apply in_seq in J. lia.
Qed.
