(** C68: the values written in a grammar are checked against their types. *)
From Verif Require Import Check CheckSpec CheckProofs CheckProofs2 CheckProofs3 CheckProofs4 CheckProofs5 CheckProofs6.
From Coq Require Import List String Ascii Bool Arith ZArith QArith Lia.
Import ListNotations.
Local Open Scope string_scope.
Local Open Scope list_scope.

(** A grammar for the examples:
<<
  Small ::= INTEGER (0..255)
  Even ::= Small (0 | 2 | 4)
  Rec ::= SEQUENCE { a Even, b OCTET STRING (SIZE (1..2)) OPTIONAL, c ENUMERATED { red, green } }
            (WITH COMPONENTS { ..., b PRESENT })
>> *)
Definition rng (a b : Z) : xcon := NRange (XInt a) (XInt b) true true.
Definition small : xtype := XT TInt [rng 0 255].
Definition even : xtype := XT (TRef "M" "Small") [NUnion (NSingle (XInt 0)) (NUnion (NSingle (XInt 2)) (NSingle (XInt 4)))].
Definition rec_comps : list (string * xopt * xtype) :=
  [("a", Omust, XT (TRef "M" "Even") []); ("b", Ooptional, XT TOcts [NSize (rng 1 2)]); ("c", Omust, XT (TEnum ["red"; "green"]) [])].
Definition rec_con : xcon := NWiths [("b", MarkPresent, None)].
Definition types (m T : string) : option xtype :=
  if String.eqb T "Small" then Some small else if String.eqb T "Even" then Some even
  else if String.eqb T "Rec" then Some (XT (TSeq rec_comps) [rec_con]) else None.
Definition no_values (m n : string) : option (xtype * xval) := None.
Definition no_types (m T : string) : option xtype := None.
Definition rec : xtype := XT (TRef "M" "Rec") [].
Definition full (x : Z) : xval := XSeq [("a", XInt x); ("b", XOcts [1%Z]); ("c", XRef "M" "green")].
Definition full_v (x : Z) : aval := ASeq [("a", AInt x); ("b", AOcts [1%Z]); ("c", AEnum "green")].
Definition part (x : Z) : xval := XSeq [("a", XInt x); ("c", XRef "M" "green")].
Definition P0 (m T : string) (v : aval) : Prop := False.
Definition P1 (m T : string) (v : aval) : Prop := T = "Small" /\ values_of types no_values P0 small v.
Definition P2 (m T : string) (v : aval) : Prop := P1 m T v \/ T = "Even" /\ values_of types no_values P1 even v.
Definition P3 (m T : string) (v : aval) : Prop := P2 m T v \/ T = "Rec" /\ values_of types no_values P2 (XT (TSeq rec_comps) [rec_con]) v.
Example C68_meaning_example : meaning types no_values P3.
Proof.
  intros m T t v. unfold types at 1. destruct (String.eqb_spec T "Small") as [->|N1].
  { intros [= <-]. unfold P3, P2, P1. split; [intros [[H|H]|H]; [apply H|destruct H; discriminate|destruct H; discriminate]|].
    intros H. left. left. split; [reflexivity|]. exact H. }
  destruct (String.eqb_spec T "Even") as [->|N2].
  { intros [= <-]. unfold P3, P2 at 1. split.
    - intros [[[H _]|[_ H]]|[H _]]; try discriminate. destruct H as [A B]. split; [|exact B]. left. left. exact A.
    - intros [A B]. left. right. split; [reflexivity|]. split; [|exact B]. destruct A as [[A|[A _]]|[A _]]; [exact A|discriminate|discriminate]. }
  destruct (String.eqb_spec T "Rec") as [->|N3]; [|discriminate].
  intros [= <-]. assert (E : forall w, P3 "M" "Even" w <-> P2 "M" "Even" w).
  { intros w. unfold P3. split; [intros [H|[H _]]; [exact H|discriminate]|]. intros H. left. exact H. }
  unfold P3 at 1. split.
  - intros [[[H _]|[H _]]|[_ H]]; try discriminate. destruct H as [[fs [-> A]] B]. split; [|exact B]. exists fs. split; [reflexivity|].
    destruct fs as [|[n w] fs]; [exact A|]. cbn -[String.eqb P2 P3 satisfies] in A |- *. destruct (String.eqb "a" n); [|exact A]. destruct A as [[A C] D].
    split; [|exact D]. split; [apply E; exact A|exact C].
  - intros [[fs [-> A]] B]. right. split; [reflexivity|]. split; [|exact B]. exists fs. split; [reflexivity|].
    destruct fs as [|[n w] fs]; [exact A|]. cbn -[String.eqb P2 P3 satisfies] in A |- *. destruct (String.eqb "a" n); [|exact A]. destruct A as [[A C] D].
    split; [|exact D]. split; [apply E; exact A|exact C].
Qed.
Ltac strict := repeat (first [apply d_int | apply d_octs | apply d_item; simpl; tauto | (eapply d_ref; [reflexivity|])
  | apply d_seq; [repeat (constructor; [simpl; intuition discriminate|]); constructor|]
  | apply df_given; [ | |simpl; intuition discriminate] | apply df_absent; [discriminate| |simpl; intuition discriminate] | apply df_nil]).
Example C68_den_example : forall x, den types no_values Strict rec (full x) (full_v x).
Proof. intros x. unfold rec, full, full_v. strict. Qed.
Example C68_all_tame_example : all_tame types no_values.
Proof.
  assert (T1 : type_tame types no_values small).
  { split; [|exact I]. exists TInt. split; [apply r_here; discriminate|]. constructor; [|constructor].
    eapply t_range; [left; reflexivity|apply d_int|apply d_int]. }
  assert (T2 : type_tame types no_values even).
  { split; [|exact I]. exists TInt. split; [eapply r_ref; [reflexivity|]; apply r_here; discriminate|]. constructor; [|constructor].
    repeat (first [apply t_union | eapply t_single; apply d_int]). }
  intros m T t. unfold types at 1. destruct (String.eqb_spec T "Small"); [intros [= <-]; exact T1|].
  destruct (String.eqb_spec T "Even"); [intros [= <-]; exact T2|].
  destruct (String.eqb_spec T "Rec"); [|discriminate]. intros [= <-]. split; [|split; [|split; [|split]]].
  - exists (TSeq rec_comps). split; [apply r_here; discriminate|]. constructor; [|constructor]. apply t_withs_seq.
    intros nm mark oc [[= <- <- <-]|[]]. split; [discriminate|]. intros c H. discriminate.
  - split; [|exact I]. exists TInt. split; [|constructor]. eapply r_ref; [reflexivity|]. eapply r_ref; [reflexivity|]. apply r_here. discriminate.
  - split; [|exact I]. exists TOcts. split; [apply r_here; discriminate|]. constructor; [|constructor]. apply t_size; [reflexivity|].
    eapply t_range; [left; reflexivity|apply d_int|apply d_int].
  - split; [|exact I]. exists (TEnum ["red"; "green"]). split; [apply r_here; discriminate|constructor].
  - exact I.
Qed.
Example C68_rec_tame_example : type_tame types no_values rec.
Proof.
  split; [|exact I]. exists (TSeq rec_comps). split; [|constructor]. eapply r_ref; [reflexivity|]. apply r_here. discriminate.
Qed.
Example C68_accepts_example : forall f, accepts types no_values (12 + f) rec (full 2) = Done true /\
  accepts types no_values (12 + f) rec (full 3) = Done false /\ accepts types no_values (12 + f) rec (part 2) = Done false.
Proof. intros f. repeat split; reflexivity. Qed.

(** The check whether a notation fits a type: it holds exactly for the notations that mean a value,
    order and repetition of SEQUENCE components apart. *)
Theorem C68_fits_partial : forall tyof valof f t e b, all_unique tyof -> unique_names t ->
  type_match tyof valof f t [] e [] = Done b -> (b = true <-> exists v, den tyof valof Loose t e v).
Proof. exact (fun tyof valof f t e b A U H => type_match_iff tyof valof A f t e b U H). Qed.
Example C68_fits_example : all_unique types /\ unique_names rec /\
  (forall f, type_match types no_values (6 + f) rec [] (full 3) [] = Done true) /\
  (forall f, type_match types no_values (6 + f) rec [] (XSeq [("a", XInt 3)]) [] = Done false).
Proof.
  split; [|split; [exact I|split; intros; reflexivity]]. intros m T t. unfold types.
  destruct (String.eqb T "Small"); [intros [= <-]; exact I|]. destruct (String.eqb T "Even"); [intros [= <-]; exact I|].
  destruct (String.eqb T "Rec"); [|discriminate]. intros [= <-]. split; [|simpl; tauto].
  repeat (constructor; [simpl; intuition discriminate|]). constructor.
Qed.
(** No notation of X.680 is taken for one of another type. *)
Theorem C68_notation : forall tyof valof f t e v b, den tyof valof Plain t e v -> type_match tyof valof f t [] e [] = Done b -> b = true.
Proof. exact (fun tyof valof f t e v b => type_match_plain tyof valof Plain f t e v b). Qed.
(** A notation without names has one meaning. *)
Theorem C68_one_meaning : forall tyof valof t e v w, den tyof valof Strict t e v -> den tyof valof Plain t e w -> v = w.
Proof. exact (fun tyof valof t e v w D D' => proj1 (strict_fun tyof valof) t e v D Plain w ltac:(discriminate) D'). Qed.
(** Equality of values. *)
Theorem C68_equality : forall tyof valof t e v e' v' is_enum, den tyof valof Strict t e v -> den tyof valof Strict t e' v' ->
  exists n b, (forall f, (n <= f)%nat -> values_equal valof f is_enum e e' = Done b) /\ (b = true <-> v = v').
Proof. exact (fun tyof valof t e v e' v' ie D D' => decides_eventually _ _ (proj1 (equal_all tyof valof ie) t e v D e' v' D')). Qed.
(** Constraints. *)
Theorem C68_constraint : forall tyof valof P k c e v is_enum bo, meaning tyof valof P -> tame tyof valof true k c -> den tyof valof Strict (XT k []) e v ->
  (k = TBits -> bo = Some TP_BIT) -> (k = TOcts -> bo = Some TP_OCT) ->
  exists n b, (forall f, (n <= f)%nat -> allowed tyof valof f c e is_enum bo = Done b) /\ (b = true <-> satisfies tyof valof P c k v).
Proof.
  exact (fun tyof valof P k c e v ie bo M T D B O =>
    decides_eventually _ _ (allowed_right tyof valof P M true k c T e v ie bo D (fun _ => conj B O))).
Qed.
(** A value is accepted exactly when it is a value of the type. *)
Theorem C68_accepts_partial : forall tyof valof P t e v, meaning tyof valof P -> all_tame tyof valof -> type_tame tyof valof t ->
  den tyof valof Strict t e v ->
  exists n b, (forall f, (n <= f)%nat -> accepts tyof valof f t e = Done b) /\ (b = true <-> values_of tyof valof P t v).
Proof. exact (fun tyof valof P t e v M A T D => decides_eventually _ _ (accepts_right tyof valof P M A t e v D T)). Qed.
(** The same for values kept with a warning only. *)
Theorem C68_conforms_partial : forall tyof valof P t e v, meaning tyof valof P -> all_tame tyof valof -> type_tame tyof valof t ->
  den tyof valof Strict t e v ->
  exists n b, (forall f, (n <= f)%nat -> conforms tyof valof f t e = Done b) /\ (b = true <-> values_of tyof valof P t v).
Proof. exact (fun tyof valof P t e v M A T D => decides_eventually _ _ (conforms_right tyof valof P M A t e v D T)). Qed.

(** * Where the checks are wrong *)
Ltac self := eexists; split; [apply r_here; discriminate|].
(** Two names of one value are taken for different values: x INTEGER (five) DEFAULT cinq. *)
Theorem C68_names_refuted : exists valof t e v,
  den no_types valof Plain t e v /\ (forall P, values_of no_types valof P t v) /\ forall f, accepts no_types valof (8 + f) t e = Done false.
Proof.
  set (vo := fun (m n : string) => Some (XT TInt [], XInt 5)).
  assert (D : forall n cs, den no_types vo Plain (XT TInt cs) (XRef "M" n) (AInt 5)).
  { intros n cs. eapply d_name; [discriminate|discriminate|discriminate|reflexivity|apply d_int]. }
  exists vo, (XT TInt [NSingle (XRef "M" "five")]), (XRef "M" "cinq"), (AInt 5). split; [apply D|]. split; [|reflexivity].
  intros P. split; [eexists; reflexivity|]. self. split; [apply D|exact I].
Qed.
(** Values of the same name from two modules are taken for one. *)
Theorem C68_modules_refuted : exists valof t e v,
  den no_types valof Plain t e v /\ (forall P, ~ values_of no_types valof P t v) /\ forall f, accepts no_types valof (8 + f) t e = Done true.
Proof.
  set (vo := fun (m n : string) => Some (XT TInt [], XInt (if String.eqb m "A" then 5 else 6))).
  exists vo, (XT TInt [NSingle (XRef "A" "x")]), (XRef "B" "x"), (AInt 6). split; [|split; [|reflexivity]].
  - eapply d_name; [discriminate|discriminate|discriminate|reflexivity|apply d_int].
  - intros P [_ [kr [R [S _]]]]. inversion R; subst. cbn [satisfies] in S. inversion S; subst.
    match goal with H : vo _ _ = Some _ |- _ => vm_compute in H; injection H as <- <- end.
    match goal with H : CheckSpec.den _ _ _ _ (XInt _) _ |- _ => inversion H end.
Qed.
(** A named value of an ENUMERATED type is refused. *)
Theorem C68_enumerated_refuted : exists valof t e v,
  den no_types valof Plain t e v /\ (forall P, values_of no_types valof P t v) /\ forall f, accepts no_types valof (8 + f) t e = Done false.
Proof.
  set (items := ["red"; "green"]).
  set (vo := fun (m n : string) => if String.eqb n "x" then Some (XT (TEnum items) [], XRef "M" "red") else None).
  exists vo, (XT (TEnum items) [NUnion (NSingle (XRef "M" "red")) (NSingle (XRef "M" "green"))]), (XRef "M" "x"), (AEnum "red").
  split; [|split; [|reflexivity]].
  - eapply d_name; [discriminate|discriminate| |reflexivity|apply d_item; left; reflexivity].
    intros it [= <-] [K|[K|[]]]; discriminate.
  - intros P. split; [exists "red"; split; [left; reflexivity|reflexivity]|]. self. split; [|exact I]. left. apply d_item. left. reflexivity.
Qed.
(** { } is refused for SEQUENCE { a INTEGER OPTIONAL } (WITH COMPONENTS { a (0..5) OPTIONAL }). *)
Theorem C68_optional_refuted : exists t e v,
  den no_types no_values Strict t e v /\ (forall P, values_of no_types no_values P t v) /\ forall f, accepts no_types no_values (8 + f) t e = Done false.
Proof.
  exists (XT (TSeq [("a", Ooptional, XT TInt [])]) [NWiths [("a", MarkOptional, Some (rng 0 5))]]), (XSeq []), (ASeq []).
  split; [|split; [|reflexivity]].
  - strict.
  - intros P. split; [exists []; repeat split; discriminate|]. self. split; [|exact I]. split; [exact I|]. split; [|exact I].
    intros w K. discriminate.
Qed.
(** INTEGER (INCLUDES T) where T ::= U and U ::= INTEGER (0..10): the bounds of U are not checked. *)
Theorem C68_inclusion_refuted : exists tyof P t e v,
  meaning tyof no_values P /\ den tyof no_values Strict t e v /\ ~ values_of tyof no_values P t v /\
  forall f, accepts tyof no_values (8 + f) t e = Done true.
Proof.
  set (U := XT TInt [rng 0 10]).
  set (ty := fun (m n : string) => if String.eqb n "T" then Some (XT (TRef "M" "U") []) else if String.eqb n "U" then Some U else None).
  set (P := fun (m T : string) (v : aval) => exists z, v = AInt z /\ (0 <= z <= 10)%Z).
  assert (RI : resolves ty (XT (TRef "M" "U") []) TInt). { eapply r_ref; [reflexivity|]. apply r_here. discriminate. }
  exists ty, P, (XT TInt [NIncl "M" "T"]), (XInt 20), (AInt 20). split; [|split; [apply d_int|split; [|reflexivity]]].
  - intros m T t v E. unfold ty in E. destruct (String.eqb T "T").
    + injection E as <-. split.
      * intros H. split; [exact H|]. exists TInt. split; [exact RI|exact I].
      * intros [H _]. exact H.
    + destruct (String.eqb T "U"); [|discriminate]. injection E as <-. split.
      * intros [z [-> Hz]]. split; [exists z; reflexivity|]. self. split; [|exact I].
        exists (AInt 0), (AInt 10). repeat split; try apply d_int; simpl; lia.
      * intros [[z ->] [kr [R [S _]]]]. exists z. split; [reflexivity|].
        assert (kr = TInt) by (inversion R; reflexivity). subst kr. destruct S as [x [y [A [B [C D]]]]]. inversion A; subst. inversion B; subst. simpl in C, D. lia.
  - intros [_ [kr [R [S _]]]]. assert (kr = TInt) by (inversion R; reflexivity). subst kr. destruct S as [z [E Hz]]. injection E as <-. lia.
Qed.
(** SIZE of an OCTET STRING within WITH COMPONENT: every value is refused. *)
Theorem C68_inner_size_refuted : exists t e v,
  den no_types no_values Strict t e v /\ (forall P, values_of no_types no_values P t v) /\ forall f, accepts no_types no_values (8 + f) t e = Done false.
Proof.
  exists (XT (TOf (XT TOcts [])) [NWith (NSize (rng 1 4))]), (XOf [XOcts [0%Z]]), (AList [AOcts [0%Z]]).
  split; [|split; [|reflexivity]].
  - apply d_of. repeat constructor.
  - intros P. split.
    + eexists. split; [reflexivity|]. intros x [<-|[]]. split; [eexists; reflexivity|]. self. exact I.
    + self. split; [|exact I]. exists (XT TOcts []), TOcts, [AOcts [0%Z]]. split; [reflexivity|]. split; [apply r_here; discriminate|]. split; [reflexivity|].
      intros x [<-|[]]. exists 1%Z. split; [reflexivity|]. exists (AInt 1), (AInt 4). repeat split; try apply d_int; simpl; lia.
Qed.
(** FROM ("ab" | "cd") refuses "a". *)
Theorem C68_alphabet_refuted : exists t e v,
  den no_types no_values Strict t e v /\ (forall P, values_of no_types no_values P t v) /\ forall f, accepts no_types no_values (8 + f) t e = Done false.
Proof.
  exists (XT TStr [NAlpha (NUnion (NSingle (XStr "ab")) (NSingle (XStr "cd")))]), (XStr "a"), (AStr "a").
  split; [apply d_str|split; [|reflexivity]].
  intros P. split; [eexists; reflexivity|]. self. split; [|exact I]. exists "a". split; [reflexivity|]. intros x [<-|[]]. left. simpl. auto.
Qed.
(** FROM (ALL EXCEPT "ab") accepts "a". *)
Theorem C68_alphabet_except_refuted : exists t e v,
  den no_types no_values Strict t e v /\ (forall P, ~ values_of no_types no_values P t v) /\ forall f, accepts no_types no_values (8 + f) t e = Done true.
Proof.
  exists (XT TStr [NAlpha (NAll (NSingle (XStr "ab")))]), (XStr "a"), (AStr "a").
  split; [apply d_str|split; [|reflexivity]].
  intros P [_ [kr [R [[s [E S]] _]]]]. injection E as <-. apply (S "a"); simpl; auto.
Qed.
(** The components of a named SEQUENCE value are not checked: { a 300 } for a INTEGER (0..255). *)
Theorem C68_named_sequence_refuted : exists valof t e v,
  den no_types valof Plain t e v /\ (forall P, ~ values_of no_types valof P t v) /\ forall f, accepts no_types valof (8 + f) t e = Done true.
Proof.
  set (s := XT (TSeq [("a", Omust, small)]) []).
  set (vo := fun (m n : string) => Some (s, XSeq [("a", XInt 300)])).
  exists vo, s, (XRef "M" "x"), (ASeq [("a", AInt 300)]). split; [|split; [|reflexivity]].
  - eapply d_name; [discriminate|discriminate|discriminate|reflexivity|]. strict.
  - intros P [[fs [E A]] _]. injection E as <-. destruct A as [[_ [kr [R [S _]]]] _].
    assert (kr = TInt) by (inversion R; reflexivity). subst kr. destruct S as [x [y [A [B [C D]]]]]. inversion B; subst. simpl in D. lia.
Qed.
(** { b 2, a 1 } and { a 1, a 2, b 3 } are accepted for SEQUENCE { a INTEGER, b INTEGER }. *)
Theorem C68_order_refuted : exists t e e',
  (forall v, ~ den no_types no_values Plain t e v) /\ (forall v, ~ den no_types no_values Plain t e' v) /\
  forall f, accepts no_types no_values (8 + f) t e = Done true /\ accepts no_types no_values (8 + f) t e' = Done true.
Proof.
  set (c := [("a", Omust, XT TInt []); ("b", Omust, XT TInt [])]).
  exists (XT (TSeq c) []), (XSeq [("b", XInt 2); ("a", XInt 1)]), (XSeq [("a", XInt 1); ("a", XInt 2); ("b", XInt 3)]).
  split; [|split; [|split; reflexivity]].
  - intros v D. inversion D; subst; try congruence. match goal with H : CheckSpec.den_fields _ _ _ _ _ _ |- _ => inversion H; subst end. congruence.
  - intros v D. inversion D; subst; try congruence. match goal with H : CheckSpec.den_fields _ _ _ _ _ _ |- _ => inversion H; subst end; [|congruence].
    match goal with H : ~ In "a" (map fst _) |- _ => apply H; left; reflexivity end.
Qed.
(** CHOICE { a INTEGER, b INTEGER } (WITH COMPONENTS { a PRESENT }) accepts b : 1. *)
Theorem C68_choice_refuted : exists t e v,
  den no_types no_values Strict t e v /\ (forall P, ~ values_of no_types no_values P t v) /\ forall f, accepts no_types no_values (8 + f) t e = Done true.
Proof.
  exists (XT (TCh [("a", XT TInt []); ("b", XT TInt [])]) [NWiths [("a", MarkPresent, None)]]), (XCh "b" (XInt 1)), (ACh "b" (AInt 1)).
  split; [|split; [|reflexivity]].
  - eapply d_ch; [reflexivity|apply d_int].
  - intros P [_ [kr [R [[S _] _]]]]. apply S. reflexivity.
Qed.
(** REAL (0..1) accepts 1.5. *)
Theorem C68_real_refuted : exists t e v,
  den no_types no_values Strict t e v /\ (forall P, ~ values_of no_types no_values P t v) /\ forall f, accepts no_types no_values (8 + f) t e = Done true.
Proof.
  exists (XT TReal [rng 0 1]), (XReal (3 # 2)), (AReal (3 # 2)). split; [apply d_real|split; [|reflexivity]].
  intros P [_ [kr [R [S _]]]]. assert (kr = TReal) by (inversion R; reflexivity). subst kr. destruct S as [x [y [A [B [C D]]]]].
  inversion B; subst. vm_compute in D. apply D. reflexivity.
Qed.
(** Values named by each other: the check does not end. *)
Theorem C68_cycle_refuted : exists valof t e, forall f, accepts no_types valof f t e = Endless.
Proof.
  set (vo := fun (m n : string) => Some (XT TInt [], XRef m (if String.eqb n "a" then "b" else "a"))).
  exists vo, (XT TInt []), (XRef "M" "a"). intros f. unfold accepts.
  assert (G : forall f n, type_match no_types vo f (XT TInt []) [] (XRef "M" n) [] = Endless).
  { clear. induction f as [|f IH]; intros n; [reflexivity|]. simpl. apply IH. }
  rewrite G. reflexivity.
Qed.

(** Values of different notations: INTEGER and REAL are compared up to the point, BIT STRING and
    OCTET STRING as bits filled up with zeros. *)
Theorem C68_mixed : forall valof f en z q a o,
  (values_equal valof (S f) en (XInt z) (XReal q) = Done true <-> whole_part q z) /\
  (values_equal valof (S f) en (XReal q) (XInt z) = Done true <-> whole_part q z) /\
  (values_equal valof (S f) en (XBits a) (XOcts o) = Done true <-> fills a o) /\
  (values_equal valof (S f) en (XOcts o) (XBits a) = Done true <-> fills a o).
Proof. exact other_equal. Qed.
Example C68_mixed_ex : values_equal no_values 1 false (XInt (-1)) (XReal (-3 # 2)) = Done true /\
  values_equal no_values 1 false (XBits [true; false; true]) (XOcts [160%Z]) = Done true.
Proof. split; reflexivity. Qed.
(** Strings are compared in the order of a dictionary. *)
Theorem C68_string_order : forall valof f a b,
  (compare_values valof (S f) (XStr a) (XStr b) = Done Eq <-> a = b) /\
  (compare_values valof (S f) (XStr a) (XStr b) = Done Lt <-> string_before a b) /\
  (compare_values valof (S f) (XStr a) (XStr b) = Done Gt <-> string_before b a).
Proof. exact string_order. Qed.
Example C68_string_order_ex : compare_values no_values 1 (XStr "ab") (XStr "abc") = Done Lt.
Proof. reflexivity. Qed.
(** A name without a value is an error. *)
Theorem C68_unknown_name : forall valof f m n w, valof m n = None -> (forall m' n', w <> XRef m' n') ->
  values_equal valof (S f) false (XRef m n) w = Raise /\ values_equal valof (S f) false w (XRef m n) = Raise /\
  compare_values valof (S f) (XRef m n) w = Raise /\ compare_values valof (S f) w (XRef m n) = Raise.
Proof. exact unknown_value. Qed.
Example C68_unknown_name_ex : no_values "M" "x" = None /\ forall m n, XInt 3 <> XRef m n.
Proof. split; [reflexivity|discriminate]. Qed.

(** * Assumptions of all theorems above *)
Definition theorems27 := (
  @C68_fits_partial, @C68_notation, @C68_one_meaning, @C68_equality, @C68_constraint,
  @C68_accepts_partial, @C68_conforms_partial, @C68_names_refuted, @C68_modules_refuted,
  @C68_enumerated_refuted, @C68_optional_refuted, @C68_inclusion_refuted, @C68_inner_size_refuted,
  @C68_alphabet_refuted, @C68_alphabet_except_refuted, @C68_named_sequence_refuted, @C68_order_refuted,
  @C68_choice_refuted, @C68_real_refuted, @C68_cycle_refuted, @C68_mixed, @C68_string_order,
  @C68_unknown_name).
Print Assumptions theorems27.
