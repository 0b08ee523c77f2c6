(** Proofs about Constraints.v. *)
From Verif Require Import Base Bits UperTypes UperSpec ConSpec Constraints.
From Coq Require Import ZifyBool ZifyNat Sorting.Sorted.
Ltac Zify.zify_post_hook ::= Z.div_mod_to_equations.

(** ** Union and intersection *)
Ltac cases_if := repeat match goal with
  | |- context [if ?b then _ else _] => destruct b eqn:?
  | H : context [if ?b then _ else _] |- _ => destruct b eqn:?
  end.

Lemma union_sound : forall r1 r2 v, in_range r1 v \/ in_range r2 v -> in_range (uperUnion r1 r2) v.
Proof. intros [] [] v; cbn; intros []; lia. Qed.

Lemma union_least : forall r1 r2 r, nonempty r1 -> nonempty r2 -> sub r1 r -> sub r2 r -> sub (uperUnion r1 r2) r.
Proof.
  unfold sub, nonempty. intros r1 r2 r [x1 N1] [x2 N2] S1 S2 v.
  destruct r1 as [a1 b1|a1|b1|], r2 as [a2 b2|a2|b2|], r as [a b|a|b|]; cbn in *; intros Hv; auto;
  (* use the ends of the ranges *)
  repeat match goal with
  | S : forall v, ?a <= v <= ?b -> _ |- _ =>
      pose proof (S a ltac:(lia)); pose proof (S b ltac:(lia)); clear S
  | S : forall v, ?a <= v -> _ <= v <= ?b |- _ => pose proof (S a ltac:(lia)); pose proof (S (Z.max a b + 1) ltac:(lia)); lia
  | S : forall v, ?a <= v -> v <= ?b |- _ => pose proof (S (Z.max a b + 1) ltac:(lia)); lia
  | S : forall v, ?a <= v -> _ <= v |- _ => pose proof (S a ltac:(lia)); clear S
  | S : forall v, v <= ?b -> ?a <= v <= _ |- _ => pose proof (S (Z.min a b - 1) ltac:(lia)); lia
  | S : forall v, v <= ?b -> ?a <= v |- _ => pose proof (S (Z.min a b - 1) ltac:(lia)); lia
  | S : forall v, v <= ?b -> v <= _ |- _ => pose proof (S b ltac:(lia)); clear S
  | S : forall v, True -> ?a <= v <= _ |- _ => pose proof (S (a - 1) I); lia
  | S : forall v, True -> ?a <= v |- _ => pose proof (S (a - 1) I); lia
  | S : forall v, True -> v <= ?b |- _ => pose proof (S (b + 1) I); lia
  end; lia.
Qed.

(** The pair on which uperIntersection is wrong. *)
Definition crossing (r1 r2 : range) : bool :=
  match r1, r2 with
  | NegInf x, Concrete a b | Concrete a b, NegInf x => (a <? x) && (x <? b)
  | _, _ => false
  end.
Lemma inter_sound : forall r1 r2 r v, uperIntersection r1 r2 = Some r -> crossing r1 r2 = false ->
  in_range r1 v -> in_range r2 v -> in_range r v.
Proof.
  intros r1 r2 r v H C H1 H2.
  destruct r1, r2; cbn in *; unfold posinf_concrete, neginf_concrete in *; cases_if;
    try discriminate; inversion H; subst; cbn in *; auto; lia.
Qed.

Lemma inter_empty : forall r1 r2, nonempty r1 -> nonempty r2 -> uperIntersection r1 r2 = None ->
  forall v, ~ (in_range r1 v /\ in_range r2 v).
Proof.
  intros r1 r2 [x N1] [y N2] H v.
  destruct r1, r2; cbn in *; unfold posinf_concrete, neginf_concrete in *; cases_if;
    try discriminate; cbn in *; lia.
Qed.
(** Nothing outside both arguments is added, except that the upper bound is
    lost in PosInf / Concrete. *)
Lemma inter_sub : forall r1 r2 r v, uperIntersection r1 r2 = Some r -> in_range r v -> in_range r1 v \/ in_range r2 v.
Proof.
  intros r1 r2 r v H H1.
  destruct r1, r2; cbn in *; unfold posinf_concrete, neginf_concrete in *; cases_if;
    try discriminate; inversion H; subst; cbn in *; auto; lia.
Qed.
Lemma inter_exact : forall r1 r2 r v, uperIntersection r1 r2 = Some r ->
  match r1, r2 with
  | Concrete _ _, Concrete _ _ | PosInf _, PosInf _ | NegInf _, NegInf _
  | PosInf _, NegInf _ | NegInf _, PosInf _ | Full, _ | _, Full => True
  | PosInf x, Concrete a _ | Concrete a _, PosInf x => a < x
  | NegInf x, Concrete a b | Concrete a b, NegInf x => b <= x
  end ->
  (in_range r v <-> in_range r1 v /\ in_range r2 v).
Proof.
  intros r1 r2 r v H.
  destruct r1, r2; cbn in *; intros C; unfold posinf_concrete, neginf_concrete in *; cases_if;
    try discriminate; inversion H; subst; cbn in *; intuition lia.
Qed.

(** ** Constraints *)

(** No intersection of the constraint meets the wrong case. *)
Fixpoint clean {A} (f : A -> option range) (c : con A) : bool :=
  match c with
  | Union c1 c2 | Except c1 c2 | Root2 c1 c2 => clean f c1 && clean f c2
  | Inter c1 c2 =>
      clean f c1 && clean f c2 &&
      match range_of f c1, range_of f c2 with Some r1, Some r2 => negb (crossing r1 r2) | _, _ => true end
  | AllExcept c | Root c => clean f c
  | Atom _ => true
  end.
Fixpoint cleans {A} (f : A -> option range) (s : range) (cs : list A) : bool :=
  match cs with
  | [] => true
  | c :: cs =>
      match f c with
      | Some r => negb (crossing s r) &&
          match uperIntersection s r with Some s' => cleans f s' cs | None => true end
      | None => true
      end
  end.

Lemma obind_some : forall A B (o : option A) (f : A -> option B) y, obind o f = Some y -> exists x, o = Some x /\ f x = Some y.
Proof. intros A B [x|] f y H; [exists x; auto|discriminate]. Qed.
Ltac ob := repeat match goal with
  | H : obind _ _ = Some _ |- _ => let x := fresh "x" in let E := fresh "E" in destruct (obind_some _ _ _ _ _ H) as (x & E & ?); clear H
  | H : Some _ = Some _ |- _ => inversion H; clear H; subst
  end.

Lemma range_sound : forall A (f : A -> option range) (p : A -> bool) (x : Z),
  (forall a r, f a = Some r -> p a = true -> in_range r x) ->
  forall c r, range_of f c = Some r -> clean f c = true -> sat p c = true -> in_range r x.
Proof.
  intros A f p x Hf. induction c; cbn; intros r H K S; ob; cbn; auto.
  - apply andb_prop in K as [K1 K2]. apply orb_prop in S. apply union_sound. destruct S; eauto.
  - apply andb_prop in K as [K K3]. apply andb_prop in K as [K1 K2]. apply andb_prop in S as [S1 S2].
    rewrite E, E0 in K3. eapply inter_sound; eauto. now destruct (crossing _ _).
  - apply andb_prop in K as [K1 K2]. apply andb_prop in S as [S1 S2]. eauto.
  - eapply Hf; eauto.
Qed.
Lemma fold_sound : forall A (f : A -> option range) (x : Z) (q : A -> Prop),
  (forall c r, f c = Some r -> q c -> in_range r x) ->
  forall cs s r, fold_ranges f s cs = Some r -> cleans f s cs = true -> in_range s x -> Forall q cs -> in_range r x.
Proof.
  intros A f x q Hf. induction cs as [|c cs IH]; cbn; intros s r H K Hs Q; ob; auto.
  inversion Q; subst. rewrite E, E0 in K. apply andb_prop in K as [K1 K2].
  eapply IH; eauto. eapply inter_sound; eauto. now destruct (crossing _ _).
Qed.

Lemma atom_sound : forall x a, sat_atom x a = true -> in_range (atom_range (fun x => x + 1) (fun x => x - 1) a) x.
Proof. intros x [v|a b [] []|a []|b []]; cbn; unfold below; lia. Qed.

(** Constraint lists whose computation meets no wrong intersection. *)
Definition int_atom (a : atom) : option range := Some (atom_range (fun x => x + 1) (fun x => x - 1) a).
Definition clean_int (cs : list icon) : bool := forallb (clean int_atom) cs && cleans int_range Full cs.

Lemma int_sound : forall cs r v, getIntTypeConstraintUperRange cs = Some r -> clean_int cs = true ->
  Forall (fun c => sat_int c v = true) cs -> in_range r v.
Proof.
  intros cs r v H K S. unfold clean_int in K. apply andb_prop in K as [K1 K2].
  rewrite forallb_forall in K1.
  eapply (fold_sound _ int_range v (fun c => sat_int c v = true /\ clean int_atom c = true)); eauto; cbn; auto.
  - intros c r0 E [S0 C0]. eapply range_sound; eauto. cbn. intros a ra Ea Sa.
    injection Ea as <-. now apply atom_sound.
  - rewrite Forall_forall in *. auto.
Qed.

(** Syntactic condition: no "MIN..b" in the constraints. *)
Fixpoint no_min (c : icon) : bool :=
  match c with
  | Union c1 c2 | Inter c1 c2 | Except c1 c2 | Root2 c1 c2 => no_min c1 && no_min c2
  | AllExcept c | Root c => no_min c
  | Atom (Le _ _) => false
  | Atom _ => true
  end.
Definition bounded_below (r : range) : bool := match r with NegInf _ => false | _ => true end.
Lemma not_crossing : forall r1 r2, bounded_below r1 = true -> bounded_below r2 = true -> crossing r1 r2 = false.
Proof. now intros [] []. Qed.
Lemma union_bb : forall r1 r2, bounded_below r1 = true -> bounded_below r2 = true -> bounded_below (uperUnion r1 r2) = true.
Proof. now intros [] []. Qed.
Lemma inter_bb : forall r1 r2 r, uperIntersection r1 r2 = Some r ->
  bounded_below r1 = true -> bounded_below r2 = true -> bounded_below r = true.
Proof.
  intros [] [] r; cbn; unfold posinf_concrete, neginf_concrete; intros H H1 H2; cases_if; try discriminate; now inversion H.
Qed.
Section NoMin.
  Variables next prev : Z -> Z.
  Let f (a : atom) : option range := Some (atom_range next prev a).
  Lemma no_min_bb : forall c r, no_min c = true -> range_of f c = Some r -> bounded_below r = true.
  Proof.
    induction c; cbn; intros r N H; ob; try apply andb_prop in N as [N1 N2]; auto using union_bb.
    - eapply inter_bb; eauto.
    - unfold f in H. destruct a; cbn in *; ob; try discriminate; reflexivity.
  Qed.
  Lemma no_min_clean : forall c, no_min c = true -> clean f c = true.
  Proof.
    induction c; cbn; intros N; try apply andb_prop in N as [N1 N2]; rewrite ?IHc, ?IHc1, ?IHc2 by auto; auto.
    destruct (range_of f c1) eqn:E1; auto. destruct (range_of f c2) eqn:E2; auto.
    rewrite not_crossing; eauto using no_min_bb.
  Qed.
End NoMin.
Lemma no_min_cleans : forall cs s, Forall (fun c => no_min c = true) cs -> bounded_below s = true -> cleans int_range s cs = true.
Proof.
  induction cs as [|c cs IH]; intros s N B; auto. inversion N; subst. cbn.
  destruct (int_range c) as [r|] eqn:E; auto.
  assert (bounded_below r = true) by (eapply no_min_bb; eauto).
  rewrite not_crossing by auto. cbn. destruct (uperIntersection s r) eqn:E'; auto.
  apply IH; auto. eapply inter_bb; eauto.
Qed.
Lemma no_min_int : forall cs, Forall (fun c => no_min c = true) cs -> clean_int cs = true.
Proof.
  intros cs N. unfold clean_int. rewrite no_min_cleans by auto. rewrite andb_true_r.
  apply forallb_forall. intros c Hc. rewrite Forall_forall in N. apply no_min_clean, N, Hc.
Qed.
Lemma int_no_min : forall cs r v, getIntTypeConstraintUperRange cs = Some r ->
  Forall (fun c => no_min c = true) cs -> Forall (fun c => sat_int c v = true) cs -> in_range r v.
Proof. eauto using int_sound, no_min_int. Qed.
Lemma int_single : forall c r v, getIntTypeConstraintUperRange [c] = Some r ->
  clean int_atom c = true -> sat_int c v = true -> in_range r v.
Proof.
  intros c r v H K S. eapply int_sound; eauto. unfold clean_int. cbn. rewrite K. cbn.
  destruct (int_range c); auto.
Qed.

(** ** Sizes *)
Lemma u32_id : forall x, 0 <= x < 2 ^ 32 -> u32 x = x.
Proof. intros x H. apply Z.mod_small, H. Qed.
(** Bounds of SIZE: UInt32 and, when exclusive, not at the end of the type. *)
Definition wf_satom (a : atom) : bool :=
  match a with
  | Val v => (0 <=? v) && (v <? 2 ^ 32)
  | Rng a b ai bi => (0 <=? a) && (a <? 2 ^ 32 - 1) && (1 <=? b) && (b <? 2 ^ 32)
  | Ge a ai => (0 <=? a) && (a <? 2 ^ 32 - 1)
  | Le b bi => (1 <=? b) && (b <? 2 ^ 32)
  end.
Fixpoint all_atoms {A} (q : A -> bool) (c : con A) : bool :=
  match c with
  | Union c1 c2 | Inter c1 c2 | Except c1 c2 | Root2 c1 c2 => all_atoms q c1 && all_atoms q c2
  | AllExcept c | Root c => all_atoms q c
  | Atom a => q a
  end.
Lemma all_atoms_sat : forall A (q : A -> bool) (p : A -> bool) c,
  all_atoms q c = true -> sat p c = sat (fun a => q a && p a) c.
Proof.
  intros A q p. induction c; cbn; intros H; try apply andb_prop in H as [H1 H2];
    rewrite ?IHc, ?IHc1, ?IHc2 by auto; auto. now rewrite H.
Qed.
Definition size_atom (a : atom) : option range := Some (atom_range (fun x => u32 (x + 1)) (fun x => u32 (x - 1)) a).
Lemma satom_sound : forall x a, wf_satom a = true -> sat_atom x a = true ->
  in_range (atom_range (fun x => u32 (x + 1)) (fun x => u32 (x - 1)) a) x.
Proof. intros x [v|a b [] []|a []|b []]; cbn; unfold below; intros; rewrite ?u32_id by lia; lia. Qed.
Lemma size_sound : forall c r n, size_range c = Some r -> all_atoms wf_satom c = true -> clean size_atom c = true ->
  sat_int c n = true -> in_range r n.
Proof.
  intros c r n H W K S. unfold sat_int in S. rewrite (all_atoms_sat _ wf_satom) in S by auto.
  eapply range_sound with (p := fun a => wf_satom a && sat_atom n a); eauto.
  cbn. intros a ra E P. injection E as <-. apply andb_prop in P as [P1 P2]. now apply satom_sound.
Qed.

Section Sizeable.
  Variable V : Type.
  Variable len : V -> Z.
  Variable eqv : V -> V -> bool.
  Hypothesis eqv_len : forall x y, eqv x y = true -> len x = len y.
  Definition sz_atom (a : szatom V) : option range :=
    match a with SzVal v => Some (Concrete (u32 (len v)) (u32 (len v))) | Size c => size_range c end.
  Definition wf_sz (a : szatom V) : bool :=
    match a with SzVal v => (0 <=? len v) && (len v <? 2 ^ 32) | Size c => all_atoms wf_satom c && clean size_atom c end.
  Definition clean_sz (cs : list (con (szatom V))) : bool :=
    forallb (fun c => all_atoms wf_sz c && clean sz_atom c) cs && cleans (sz_range len) Full cs.
  Lemma sizeable_sound : forall cs r x, getSizeableUperRange len cs = Some r -> clean_sz cs = true ->
    Forall (fun c => sat (sat_szatom eqv len x) c = true) cs -> in_range r (len x).
  Proof.
    intros cs r x H K S. unfold clean_sz in K. apply andb_prop in K as [K1 K2].
    rewrite forallb_forall in K1.
    eapply (fold_sound _ (sz_range len) (len x)
      (fun c => sat (sat_szatom eqv len x) c = true /\ all_atoms wf_sz c && clean sz_atom c = true)); eauto; cbn; auto.
    - intros c r0 E [S0 C0]. apply andb_prop in C0 as [C1 C2].
      rewrite (all_atoms_sat _ wf_sz) in S0 by auto.
      eapply range_sound with (p := fun a => wf_sz a && sat_szatom eqv len x a); eauto.
      intros a ra Ea P. apply andb_prop in P as [P1 P2]. destruct a as [v|c0]; cbn in *.
      + injection Ea as <-. cbn. apply eqv_len in P2. rewrite u32_id by lia. lia.
      + apply andb_prop in P1 as [P1 P3]. eapply size_sound; eauto.
    - rewrite Forall_forall in *. auto.
  Qed.
End Sizeable.

Lemma eqs_eq : forall s t, eqs s t = true <-> s = t.
Proof.
  induction s as [|x s IH]; intros [|y t]; cbn; try (split; congruence).
  rewrite andb_true_iff, IH, Z.eqb_eq. intuition congruence.
Qed.
Definition str_atom (a : stratom) : option range :=
  match a with
  | StrVal s => Some (Concrete (u32 (Z.of_nat (length s))) (u32 (Z.of_nat (length s))))
  | StrSize c => size_range c
  | StrFrom _ => Some Full
  end.
Definition wf_stratom (a : stratom) : bool :=
  match a with
  | StrVal s => Z.of_nat (length s) <? 2 ^ 32
  | StrSize c => all_atoms wf_satom c && clean size_atom c
  | StrFrom _ => true
  end.
Definition clean_str (cs : list scon) : bool :=
  forallb (fun c => all_atoms wf_stratom c && clean str_atom c) cs && cleans str_size_range Full cs.
Lemma str_size_sound : forall cs r s, getStringSizeUperRange cs = Some r -> clean_str cs = true ->
  Forall (fun c => sat_str c s = true) cs -> in_range r (Z.of_nat (length s)).
Proof.
  intros cs r x H K S. unfold clean_str in K. apply andb_prop in K as [K1 K2].
  rewrite forallb_forall in K1.
  eapply (fold_sound _ str_size_range (Z.of_nat (length x))
    (fun c => sat_str c x = true /\ all_atoms wf_stratom c && clean str_atom c = true)); eauto; cbn; auto.
  - intros c r0 E [S0 C0]. apply andb_prop in C0 as [C1 C2]. unfold sat_str in S0.
    rewrite (all_atoms_sat _ wf_stratom) in S0 by auto.
    eapply range_sound with (p := fun a => wf_stratom a && sat_stratom x a); eauto.
    intros a ra Ea P. apply andb_prop in P as [P1 P2]. destruct a as [v|c0|c0]; cbn in *.
    + injection Ea as <-. cbn. apply eqs_eq in P2. subst. rewrite u32_id by lia. lia.
    + apply andb_prop in P1 as [P1 P3]. eapply size_sound; eauto.
    + injection Ea as <-. exact I.
  - rewrite Forall_forall in *. auto.
Qed.

(** ** Alphabets *)
Lemma mem_In : forall x l, mem x l = true <-> In x l.
Proof.
  intros x l. unfold mem. rewrite existsb_exists. split.
  - intros (y & H & E). apply Z.eqb_eq in E. now subst.
  - intros H. exists x. split; auto. apply Z.eqb_refl.
Qed.
Lemma distinct_from_In : forall l seen x, In x (distinct_from seen l) <-> In x l /\ ~ In x seen.
Proof.
  induction l as [|y l IH]; intros seen x; cbn; [intuition|].
  destruct (mem y seen) eqn:M.
  - apply mem_In in M. rewrite IH. split; [intuition|]. intros [[<-|H] N]; [contradiction|auto].
  - assert (~ In y seen) by (intros H; apply mem_In in H; congruence).
    cbn. rewrite IH. cbn. destruct (Z.eq_dec y x) as [->|N]; intuition.
Qed.
Lemma distinct_In : forall l x, In x (distinct l) <-> In x l.
Proof. intros l x. unfold distinct. rewrite distinct_from_In. cbn. intuition. Qed.
Lemma union_In : forall l1 l2 x, In x (CharSetUnion l1 l2) <-> In x l1 \/ In x l2.
Proof. intros l1 l2 x. unfold CharSetUnion. rewrite distinct_In. apply in_app_iff. Qed.
Lemma intersect_In : forall l1 l2 l x, IntersectArrays l1 l2 = Some l -> (In x l <-> In x l1 /\ In x l2).
Proof.
  intros l1 l2 l x H. unfold IntersectArrays in H.
  assert (l = filter (fun ch => mem ch l2) l1) as ->.
  { destruct (filter _ l1); congruence. }
  rewrite filter_In, mem_In. reflexivity.
Qed.
Lemma intersect_filter : forall l1 l2 l, IntersectArrays l1 l2 = Some l -> l = filter (fun ch => mem ch l2) l1 /\ l <> [].
Proof. intros l1 l2 l H. unfold IntersectArrays in H. destruct (filter _ l1); inversion H; subst; split; congruence. Qed.

Lemma findIndex_nth : forall x l i j, findIndex x l i = Some j -> i <= j < i + Z.of_nat (length l) /\ nth_error l (Z.to_nat (j - i)) = Some x.
Proof.
  induction l as [|y l IH]; cbn [findIndex length]; intros i j H; [discriminate|].
  destruct (y =? x) eqn:E.
  - injection H as <-. rewrite Z.sub_diag. cbn. apply Z.eqb_eq in E. subst. split; [lia|auto].
  - apply IH in H as [B N]. split; [lia|].
    replace (Z.to_nat (j - i)) with (S (Z.to_nat (j - (i + 1)))) by lia. exact N.
Qed.
Lemma nth_firstn_lt : forall A (l : list A) n k, (k < n)%nat -> nth_error (firstn n l) k = nth_error l k.
Proof.
  intros A. induction l as [|y l IH]; intros [|n] [|k] H; cbn; auto; try lia.
  apply IH. lia.
Qed.
Lemma nth_skipn_add : forall A (l : list A) n k, nth_error (skipn n l) k = nth_error l (n + k).
Proof.
  intros A. induction l as [|y l IH]; intros [|n] k; cbn; auto. now destruct k.
Qed.
Lemma slice_In : forall l i j k x, 0 <= i -> i <= k <= j -> nth_error l (Z.to_nat k) = Some x -> In x (slice l i j).
Proof.
  intros l i j k x Hi Hk N. unfold slice.
  apply nth_error_In with (n := Z.to_nat (k - i)).
  rewrite nth_firstn_lt by lia. rewrite nth_skipn_add.
  replace (Z.to_nat i + Z.to_nat (k - i))%nat with (Z.to_nat k) by lia. exact N.
Qed.
Lemma In_slice : forall l i j x, 0 <= i -> In x (slice l i j) -> exists k, i <= k <= j /\ nth_error l (Z.to_nat k) = Some x.
Proof.
  intros l i j x Hi H. unfold slice in H. apply In_nth_error in H as [n N].
  assert (n < Z.to_nat (j - i + 1))%nat as L.
  { enough (n < length (firstn (Z.to_nat (j - i + 1)) (skipn (Z.to_nat i) l)))%nat.
    { rewrite firstn_length in *. lia. }
    apply nth_error_Some. congruence. }
  rewrite nth_firstn_lt in N by auto. rewrite nth_skipn_add in N.
  exists (i + Z.of_nat n). split; [lia|].
  now replace (Z.to_nat (i + Z.of_nat n)) with (Z.to_nat i + n)%nat by lia.
Qed.
Lemma sorted_nth : forall l, canonical l -> forall i j x y, nth_error l i = Some x -> nth_error l j = Some y ->
  ((i < j)%nat <-> x < y).
Proof.
  induction 1 as [|z l S IH F]; intros i j x y.
  - now destruct i.
  - rewrite Forall_forall in F. destruct i as [|i], j as [|j]; cbn; intros Hi Hj.
    + assert (x = y) by congruence. lia.
    + injection Hi as <-. apply nth_error_In in Hj. apply F in Hj. lia.
    + injection Hj as <-. apply nth_error_In in Hi. apply F in Hi. lia.
    + rewrite <- (IH i j x y) by auto. lia.
Qed.
Lemma minmax_In : forall d a b ai bi l x, canonical d -> GetCharSetFromMinMax d a b ai bi = Some l ->
  (In x l <-> In x d /\ below ai a x = true /\ below bi x b = true).
Proof.
  intros d a b ai bi l x C H. unfold GetCharSetFromMinMax in H. ob.
  apply findIndex_nth in E as [B1 N1]. apply findIndex_nth in E0 as [B2 N2].
  rewrite Z.sub_0_r in N1, N2.
  assert (A1 : forall k, 0 <= k -> nth_error d (Z.to_nat k) = Some x -> ((if ai then x0 else x0 + 1) <= k <-> below ai a x = true)).
  { intros k Hk N. pose proof (sorted_nth d C _ _ _ _ N1 N) as P. pose proof (sorted_nth d C _ _ _ _ N N1) as Q.
    unfold below. destruct ai; lia. }
  assert (A2 : forall k, 0 <= k -> nth_error d (Z.to_nat k) = Some x -> (k <= (if bi then x1 else x1 - 1) <-> below bi x b = true)).
  { intros k Hk N. pose proof (sorted_nth d C _ _ _ _ N2 N) as P. pose proof (sorted_nth d C _ _ _ _ N N2) as Q.
    unfold below. destruct bi; lia. }
  split.
  - intros H. apply In_slice in H as (k & Hk & N); [|destruct ai; lia].
    assert (0 <= k) by (destruct ai; lia).
    split; [eapply nth_error_In; eauto|]. split; [apply (A1 k)|apply (A2 k)]; auto; lia.
  - intros (I & P1 & P2). apply In_nth_error in I as [n N].
    assert (N' : nth_error d (Z.to_nat (Z.of_nat n)) = Some x) by now rewrite Nat2Z.id.
    apply (slice_In d _ _ (Z.of_nat n)); auto; [destruct ai; lia|].
    apply (A1 (Z.of_nat n)) in P1; auto; [|lia]. apply (A2 (Z.of_nat n)) in P2; auto; lia.
Qed.
Lemma below_last : forall d x, canonical d -> In x d -> x <= last d 0.
Proof.
  intros d x C. revert x. induction C as [|z l S IH F]; intros x I; [destruct I|].
  destruct l as [|y l].
  - destruct I; [cbn; lia|contradiction].
  - change (last (z :: y :: l) 0) with (last (y :: l) 0). destruct I as [<-|I].
    + inversion F; subst. assert (y <= last (y :: l) 0) by (apply IH; now left). lia.
    + apply IH, I.
Qed.
Lemma above_hd : forall d x, canonical d -> In x d -> hd 0 d <= x.
Proof.
  intros d x C I. destruct C as [|z l S F]; [destruct I|]. rewrite Forall_forall in F. cbn.
  destruct I as [<-|I]; [lia|]. apply F in I. lia.
Qed.
Lemma chatom_exact : forall d a l x, canonical d -> chatom_chars d a = Some l ->
  In x d -> (In x l <-> sat_chatom x a = true).
Proof.
  intros d [s|a b ai bi|a ai|b bi] l x C H I; cbn in *.
  - injection H as <-. rewrite distinct_In. symmetry. apply mem_In.
  - rewrite (minmax_In _ _ _ _ _ _ x C H), andb_true_iff. intuition.
  - rewrite (minmax_In _ _ _ _ _ _ x C H). unfold below at 2. pose proof (below_last d x C I). intuition lia.
  - rewrite (minmax_In _ _ _ _ _ _ x C H). unfold below at 1. pose proof (above_hd d x C I). intuition lia.
Qed.
Lemma char_sound : forall d x, canonical d -> In x d ->
  forall c l, chars_of d (chatom_chars d) c = Some l -> sat_char c x = true -> In x l.
Proof.
  intros d x C I. induction c; cbn; intros l H S; ob; auto.
  - apply union_In. apply orb_prop in S as [S|S]; eauto.
  - apply andb_prop in S as [S1 S2]. eapply intersect_In; eauto.
  - apply andb_prop in S as [S1 S2]. eauto.
  - eapply chatom_exact; eauto.
Qed.
Lemma str_char_sound : forall d c l s, canonical d -> str_chars d c = Some l -> sat_str c s = true ->
  (forall x, In x s -> In x d) -> forall x, In x s -> In x l.
Proof.
  intros d c l s C H S I x Hx. revert l H S. induction c; cbn; intros l H S; ob; auto.
  - apply union_In. apply orb_prop in S as [S|S]; eauto.
  - apply andb_prop in S as [S1 S2]. eapply intersect_In; eauto.
  - apply andb_prop in S as [S1 S2]. eauto.
  - destruct a as [t|c|c]; ob; auto. cbn in S. rewrite forallb_forall in S.
    eapply char_sound; eauto.
Qed.
Lemma alpha_sound_aux : forall d s cs l0 l, canonical d -> fold_chars d l0 cs = Some l ->
  Forall (fun c => sat_str c s = true) cs -> (forall x, In x s -> In x d) -> (forall x, In x s -> In x l0) ->
  forall x, In x s -> In x l.
Proof.
  intros d s. induction cs as [|c cs IH]; cbn; intros l0 l C H F I I0 x Hx; ob; auto.
  inversion F; subst.
  apply (IH x1); auto.
  intros y Hy. apply (intersect_In _ _ _ y E0). split; auto. eapply str_char_sound; eauto.
Qed.
Lemma alpha_sound : forall d cs l s, canonical d -> getSrtingAlphaUperRange d cs = Some l ->
  Forall (fun c => sat_str c s = true) cs -> (forall x, In x s -> In x d) -> forall x, In x s -> In x l.
Proof. intros d cs l s C H F I. eapply alpha_sound_aux; eauto. Qed.

(** The alphabet is part of the default one, in the same order. *)
Lemma filter_canonical : forall p l, canonical l -> canonical (filter p l).
Proof.
  intros p l H. induction H as [|x l S IH F]; cbn; [constructor|].
  destruct (p x); auto. constructor; auto.
  apply Forall_forall. rewrite Forall_forall in F. intros y Hy. apply filter_In in Hy as [Hy _]. auto.
Qed.
Lemma alpha_canonical_aux : forall d cs l0 l, canonical l0 -> fold_chars d l0 cs = Some l ->
  canonical l /\ (forall x, In x l -> In x l0) /\ (l0 <> [] -> l <> []).
Proof.
  intros d. induction cs as [|c cs IH]; cbn; intros l0 l C H; ob; auto.
  pose proof (intersect_filter _ _ _ E0) as [-> N].
  match goal with H : fold_chars _ _ _ = _ |- _ => apply IH in H as (H1 & H2 & H3) end; [|now apply filter_canonical].
  split; auto. split; auto. intros y Hy. apply H2, filter_In in Hy. tauto.
Qed.
Lemma alpha_canonical : forall d cs l, canonical d -> d <> [] -> getSrtingAlphaUperRange d cs = Some l ->
  canonical l /\ l <> [] /\ (forall x, In x l -> In x d).
Proof. intros d cs l C N H. apply alpha_canonical_aux in H as (H1 & H2 & H3); auto. Qed.

(** Exactness of FROM constraints built with | and ^ only. *)
Fixpoint positive {A} (c : con A) : bool :=
  match c with
  | Union c1 c2 | Inter c1 c2 => positive c1 && positive c2
  | Atom _ => true
  | _ => false
  end.
Lemma char_exact : forall d x, canonical d -> In x d ->
  forall c l, positive c = true -> chars_of d (chatom_chars d) c = Some l -> (In x l <-> sat_char c x = true).
Proof.
  intros d x C I. induction c; cbn; intros l P H; ob; try discriminate.
  - apply andb_prop in P as [P1 P2]. rewrite union_In, orb_true_iff, (IHc1 x0), (IHc2 x1) by auto. reflexivity.
  - apply andb_prop in P as [P1 P2]. match goal with H : IntersectArrays _ _ = _ |- _ => rewrite (intersect_In _ _ _ x H) end. rewrite andb_true_iff, (IHc1 x0), (IHc2 x1) by auto. reflexivity.
  - eapply chatom_exact; eauto.
Qed.
Lemma alpha_exact : forall d c l x, canonical d -> positive c = true ->
  getSrtingAlphaUperRange d [Atom (StrFrom c)] = Some l -> (In x l <-> In x d /\ sat_char c x = true).
Proof.
  intros d c l x C P H. unfold getSrtingAlphaUperRange in H. cbn in H. ob.
  rewrite (intersect_In _ _ _ x E0). split; intros [H1 H2]; split; auto; eapply char_exact; eauto.
Qed.

(** ** The C type of an INTEGER *)
Lemma class_fits : forall slim w r v p u, (w = 32 \/ w = 64) -> int_class slim w r = (p, u) -> in_range r v ->
  (match r with
   | Concrete a b => if slim then if 0 <=? a then b < 2 ^ 64 else - 2 ^ 63 <= a /\ b < 2 ^ 63
                     else in_class (0 <=? a) w a /\ in_class (0 <=? a) w b
   | PosInf a => in_class (0 <=? a) w v
   | NegInf _ | Full => in_class false w v
   end) ->
  in_class p u v.
Proof.
  intros slim w r v p u W H R F. unfold int_class in H.
  destruct r as [a b|a|b|]; cbn [in_range] in R.
  - destruct (0 <=? a) eqn:A; destruct slim; cases_if; inversion H; subst; unfold in_class in *;
      cbn [Z.sub Z.pos_sub Z.opp Z.add] in *; try lia; destruct W; subst; lia.
  - destruct (0 <=? a); inversion H; subst; auto.
  - inversion H; subst; auto.
  - inversion H; subst; auto.
Qed.

(** ** From the parse tree to constraints *)
Section SrcInd.
  Context {A : Type} (P : src A -> Prop).
  Hypotheses (HU : forall c1 c2, P c1 -> P c2 -> P (SUnion c1 c2)) (HI : forall c1 c2, P c1 -> P c2 -> P (SInter c1 c2))
    (HN : forall c, P c -> P (SAllExcept c)) (HE : forall c1 c2, P c1 -> P c2 -> P (SExcept c1 c2))
    (HR : forall c, P c -> P (SRoot c)) (HR2 : forall c1 c2, P c1 -> P c2 -> P (SRoot2 c1 c2))
    (HA : forall a, P (SAtom a)) (HM : P SMinMax) (HL : forall l, Forall P l -> P (SIncl l)).
  Fixpoint src_ind' (c : src A) : P c :=
    match c with
    | SUnion c1 c2 => HU c1 c2 (src_ind' c1) (src_ind' c2)
    | SInter c1 c2 => HI c1 c2 (src_ind' c1) (src_ind' c2)
    | SAllExcept c => HN c (src_ind' c)
    | SExcept c1 c2 => HE c1 c2 (src_ind' c1) (src_ind' c2)
    | SRoot c => HR c (src_ind' c)
    | SRoot2 c1 c2 => HR2 c1 c2 (src_ind' c1) (src_ind' c2)
    | SAtom a => HA a
    | SMinMax => HM
    | SIncl l => HL l ((fix go l := match l return Forall P l with
                                    | [] => Forall_nil _
                                    | c :: l => Forall_cons _ (src_ind' c) (go l) end) l)
    end.
End SrcInd.


(** No extension addition MIN..MAX. *)
Fixpoint no_open_ext {A} (c : src A) : bool :=
  match c with
  | SUnion c1 c2 | SInter c1 c2 | SExcept c1 c2 => no_open_ext c1 && no_open_ext c2
  | SAllExcept c | SRoot c => no_open_ext c
  | SRoot2 c1 c2 => no_open_ext c1 && no_open_ext c2 && match create c2 with Some None => false | _ => true end
  | SAtom _ | SMinMax | SIncl _ => true
  end.
Lemma create_sound : forall A (p : A -> bool) (c : src A) k, no_open_ext c = true -> create c = Some k ->
  match k with Some k => sats p k = sats p c | None => sats p c = true end.
Proof.
  intros A p. induction c using src_ind'; cbn; intros k N H0; ob; try reflexivity.
  - apply andb_prop in N as [N1 N2]. specialize (IHc1 _ N1 E). specialize (IHc2 _ N2 E0).
    destruct x, x0; cbn; rewrite ?IHc1, ?IHc2; auto using orb_true_r.
  - apply andb_prop in N as [N1 N2]. specialize (IHc1 _ N1 E). specialize (IHc2 _ N2 E0).
    destruct x, x0; cbn; rewrite ?IHc1, ?IHc2; auto using andb_true_r.
  - specialize (IHc _ N E). cbn. now rewrite IHc.
  - apply andb_prop in N as [N1 N2]. specialize (IHc1 _ N1 E). specialize (IHc2 _ N2 E0). destruct x; cbn; rewrite ?IHc1, ?IHc2; auto.
  - specialize (IHc _ N E). destruct x; cbn; auto.
  - apply andb_prop in N as [N N3]. apply andb_prop in N as [N1 N2].
    specialize (IHc1 _ N1 E). specialize (IHc2 _ N2 E0). rewrite E0 in N3. destruct x0; [|discriminate]. cbn. rewrite ?IHc1, ?IHc2; auto.
Qed.

Definition satall {A} (p : A -> bool) (l : list (con A)) : bool := forallb (sat p) l.
Lemma inter1_sat : forall A (p : A -> bool) l c, sat p (inter1 c l) = sat p c && satall p l.
Proof.
  intros A p. induction l as [|d l IH]; intros c; cbn; [now rewrite andb_true_r|].
  unfold inter1 in *. rewrite IH. cbn. now rewrite andb_assoc.
Qed.
(** No included type without constraints as argument of |, EXCEPT, ALL EXCEPT or
    of an extensible constraint. *)
Definition some_con {A} (c : src A) : bool := match fixConstraint c with [] => false | _ => true end.
Fixpoint constrained {A} (c : src A) : bool :=
  match c with
  | SUnion c1 c2 | SRoot2 c1 c2 => constrained c1 && constrained c2 && some_con c1 && some_con c2
  | SInter c1 c2 => constrained c1 && constrained c2
  | SExcept c1 c2 => constrained c1 && constrained c2 && some_con c2
  | SAllExcept c => constrained c && some_con c
  | SRoot c => constrained c
  | SAtom _ | SMinMax => true
  | SIncl l => forallb constrained l
  end.
Lemma satall_app : forall A (p : A -> bool) l1 l2, satall p (l1 ++ l2) = satall p l1 && satall p l2.
Proof. intros. apply forallb_app. Qed.
Lemma fix_sound : forall A (p : A -> bool) (c : src A), constrained c = true ->
  satall p (fixConstraint c) = sats p c.
Proof.
  intros A p. induction c as [c1 c2 IH1 IH2|c1 c2 IH1 IH2|c IHc|c1 c2 IH1 IH2|c IHc|c1 c2 IH1 IH2|a| |l IHl] using src_ind'; cbn [constrained]; intros K.
  - apply andb_prop in K as [K K4]. apply andb_prop in K as [K K3]. apply andb_prop in K as [K1 K2].
    unfold some_con in *. cbn. rewrite <- IH1, <- IH2 by auto.
    destruct (fixConstraint c1), (fixConstraint c2); try discriminate. cbn. rewrite !inter1_sat, andb_true_r. reflexivity.
  - apply andb_prop in K as [K1 K2]. cbn. rewrite <- IH1, <- IH2 by auto.
    destruct (fixConstraint c1), (fixConstraint c2); cbn; rewrite ?inter1_sat, ?andb_true_r; auto.
  - apply andb_prop in K as [K1 K2]. unfold some_con in *. cbn. rewrite <- IHc by auto.
    destruct (fixConstraint c); try discriminate. cbn. rewrite inter1_sat, andb_true_r. reflexivity.
  - apply andb_prop in K as [K K3]. apply andb_prop in K as [K1 K2].
    unfold some_con in *. cbn. rewrite <- IH1, <- IH2 by auto.
    destruct (fixConstraint c1), (fixConstraint c2); try discriminate; cbn; rewrite !inter1_sat, andb_true_r; reflexivity.
  - cbn. rewrite <- IHc by auto. destruct (fixConstraint c); cbn; auto. rewrite inter1_sat, andb_true_r. reflexivity.
  - apply andb_prop in K as [K K4]. apply andb_prop in K as [K K3]. apply andb_prop in K as [K1 K2].
    unfold some_con in *. cbn. rewrite <- IH1, <- IH2 by auto.
    destruct (fixConstraint c1), (fixConstraint c2); try discriminate. cbn. rewrite !inter1_sat, andb_true_r. reflexivity.
  - cbn. now rewrite andb_true_r.
  - reflexivity.
  - rename IHl into H. cbn. cbn in K. induction H as [|c l Hc Hl IH]; cbn in *; auto.
    apply andb_prop in K as [K1 K2]. change (satall p (fixConstraint c ++ flat_map fixConstraint l) = sats p c && forallb (sats p) l). rewrite satall_app, Hc by auto. f_equal. apply IH, K2.
Qed.
