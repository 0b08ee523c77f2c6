(** C69: names of the C types. *)
From Coq Require Import String Ascii List Bool ZArith Lia.
From Verif Require Import Names TypeNames TypeNamesSpec TypeNamesProofs TypeNamesProofs2 TypeNamesProofs3.
Import ListNotations.
Local Open Scope string_scope.
Local Open Scope list_scope.

(** A grammar of two modules: M has T, a SEQUENCE whose field a is a SEQUENCE, and U, which is an
    INTEGER; N has T, an INTEGER, and T-a, a subtype of U of M. *)
Definition ex_tas : list (string * string) := [("M", "T"); ("M", "U"); ("N", "T"); ("N", "T-a")].
Definition ex_a : ref := [MD "M"; TA "T"; SEQ_CHILD "a" false].
Definition ex_calls : list call :=
  [ mkcall Sequence [MD "M"; TA "T"] FNew; mkcall Sequence ex_a FNew;
    mkcall Primitive [MD "M"; TA "T"; SEQ_CHILD "a" false; SEQ_CHILD "x" false] (FRTL (Some ("", "asn1SccSint", "INTEGER")));
    mkcall Primitive [MD "M"; TA "T"; SEQ_CHILD "b" true] (FRef [MD "M"; TA "U"]);
    mkcall Primitive [MD "N"; TA "T-a"] (FSub [MD "M"; TA "U"]);
    mkcall Primitive [MD "M"; TA "U"] FNew; mkcall Primitive [MD "N"; TA "T"] FNew ].
Definition ex_run := merge 9 "" ex_tas ex_calls.
Example ex_names : exists ds st, ex_run = Ok (ds, st) /\
  map def_name ds = ["T"; "M_T_a"; "asn1SccSint"; "U"; "T_a"; "U"; "N_T"] /\
  map (fun id => def_names (snd id)) (defs st) =
    [["N_T"]; ["T_a"]; ["U"]; ["M_T_a"; "T_a_exist"; "T_a_extension_function_positions"];
     ["T"; "T_exist"; "T_extension_function_positions"]].
Proof. eexists _, _. vm_compute. split; [reflexivity|]. split; reflexivity. Qed.
Example ex_hyps : NoDup ex_tas /\ (forall c, In c ex_calls -> based ex_tas c) /\ settled ex_calls.
Proof.
  split; [repeat constructor; cbn; intuition congruence|]. split.
  - intros c H s E. cbn in H. repeat (destruct H as [H|H]; [subst c; try discriminate E|]); [|destruct H].
    injection E as <-. split; [discriminate|]. intros _. exists "M", "U". cbn. auto.
  - intros c H. cbn in H. repeat (destruct H as [H|H]; [subst c; cbn; try exact I; intuition discriminate|]). destruct H.
Qed.

(** A name that is reserved was not taken, is no keyword and is taken afterwards. *)
Theorem C69_reserve : forall fuel tp m unit name r m', reserve fuel tp m unit name = Ok (r, m') ->
  ~ In r (taken m) /\ ~ In r c90 /\ taken m' = r :: taken m.
Proof. exact reserve_fresh. Qed.
Example C69_reserve_ex : reserve 9 "" [("B_T", ["A"]); ("T", ["A"])] "B" "T" =
  Ok ("B_B_T", [("B_B_T", ["B"]); ("B_T", ["A"]); ("T", ["A"])]).
Proof. vm_compute. reflexivity. Qed.

(** Whatever the calls and their order: no name belongs to two type definitions, nor twice to one,
    and none is a keyword. *)
Theorem C69_unique : forall fuel tp tas l ds st, merge fuel tp tas l = Ok (ds, st) -> NoDup tas ->
  (forall c, In c l -> based tas c) ->
  (forall i d, find_ref i (defs st) = Some d -> NoDup (def_names d) /\ disjoint (def_names d) c90) /\
  (forall i j d e, find_ref i (defs st) = Some d -> find_ref j (defs st) = Some e -> i <> j ->
     disjoint (def_names d) (def_names e)).
Proof. exact merge_unique. Qed.
Example C69_unique_ex : exists ds st, ex_run = Ok (ds, st) /\ NoDup ex_tas /\ (forall c, In c ex_calls -> based ex_tas c).
Proof. destruct ex_names as [ds [st [E _]]]. exists ds, st. split; [exact E|]. split; apply ex_hyps. Qed.

(** What each call answered, and so what the generated code calls the type, is what the type is
    called in the end. *)
Theorem C69_answers : forall fuel tp tas l ds st, merge fuel tp tas l = Ok (ds, st) -> NoDup tas ->
  (forall c, In c l -> based tas c) -> settled l -> Forall2 (answer st) l ds.
Proof. exact merge_answers. Qed.
Example C69_answers_ex : exists ds st, ex_run = Ok (ds, st) /\ settled ex_calls /\ length ds = 7%nat.
Proof. eexists _, _. vm_compute. split; [reflexivity|]. split; [apply ex_hyps|reflexivity]. Qed.

(** Type assignments whose names are distinct in C and no keywords keep them. *)
Theorem C69_plain : forall fuel tp tas l ds st, merge (S fuel) tp tas l = Ok (ds, st) -> NoDup tas ->
  (forall c, In c l -> based tas c) ->
  NoDup (map (fun mt => ToC (tp ++ snd mt)) tas) -> disjoint (map (fun mt => ToC (tp ++ snd mt)) tas) c90 ->
  forall m t d, In (m, t) tas -> find_ref [MD m; TA t] (defs st) = Some d -> def_name d = ToC (tp ++ t).
Proof. exact merge_plain. Qed.
Example C69_plain_ex : exists ds st d,
  merge 9 "asn1Scc" [("M", "My-T"); ("M", "U")] [mkcall Primitive [MD "M"; TA "My-T"] (FSub [MD "M"; TA "U"])] = Ok (ds, st) /\
  find_ref [MD "M"; TA "My-T"] (defs st) = Some d /\ def_name d = "asn1SccMy_T".
Proof. eexists _, _, _. vm_compute. split; [reflexivity|]. split; reflexivity. Qed.

(** The search for a name ends, with an identifier. *)
Theorem C69_returns_partial : forall tp m unit name fuel,
  ~ In "_"%char (list_ascii_of_string tp) -> identifier unit -> countable tp m name ->
  (Z.of_nat (length m) < 2 ^ 31 - 3)%Z -> (length m < fuel)%nat ->
  exists r m', reserve fuel tp m unit name = Ok (r, m') /\ identifier r.
Proof. exact reserve_returns. Qed.
Lemma ex_identifier : identifier "B" /\ identifier "T_4".
Proof.
  assert (U : forall c, In c ["B"; "T"]%char -> nondigit c).
  { intros c [<-|[<-|[]]]; right; left; unfold between; cbn; lia. }
  split; split.
  - intros c [<-|[]]. right. apply U. cbn. auto.
  - eexists _, _. split; [reflexivity|]. apply U. cbn. auto.
  - intros c [<-|[<-|[<-|[]]]]; [right; apply U; cbn; auto|right; right; now right|].
    left. unfold digit, between. cbn. lia.
  - eexists _, _. split; [reflexivity|]. apply U. cbn. auto.
Qed.
Example C69_returns_ex : identifier "B" /\ identifier "T_4" /\
  reserve 4 "" [("T_4", ["B"]); ("T_5", ["A"]); ("B_T_5", ["B"])] "B" "T_4" =
    Ok ("B_T_6", [("B_T_6", ["B"]); ("T_4", ["B"]); ("T_5", ["A"]); ("B_T_5", ["B"])]).
Proof. split; [apply ex_identifier|]. split; [apply ex_identifier|]. vm_compute. reflexivity. Qed.

(** The number is an Int32 that overflows: field a-2147483647 of T, and the type T-a-2147483647. *)
Theorem C69_overflow_refuted : exists tas l ds st i d,
  merge 9 "" tas l = Ok (ds, st) /\ NoDup tas /\ (forall c, In c l -> c_kind c = FNew) /\
  find_ref i (defs st) = Some d /\ def_name d = "T_a_-2147483648" /\ ~ identifier (def_name d).
Proof.
  exists [("M", "T"); ("M", "T-a-2147483647")],
    [mkcall Sequence [MD "M"; TA "T"] FNew; mkcall Sequence [MD "M"; TA "T"; SEQ_CHILD "a-2147483647" false] FNew].
  eexists _, _, [MD "M"; TA "T"; SEQ_CHILD "a-2147483647" false], _.
  split; [vm_compute; reflexivity|]. split; [repeat constructor; cbn; intuition congruence|].
  split; [intros c [<-|[<-|[]]]; reflexivity|]. split; [vm_compute; reflexivity|]. split; [reflexivity|].
  intros [W _]. assert (H : In "-"%char (list_ascii_of_string "T_a_-2147483648")) by (cbn; auto 6).
  destruct (W _ H) as [[A B]|[[A B]|[[A B]|A]]]; try discriminate A; cbn in A, B; lia.
Qed.

(** A type that has its name for itself may yet lose it to one that is renamed before it. *)
Theorem C69_own_name_refuted : exists tas l ds st m t d,
  merge 9 "" tas l = Ok (ds, st) /\ NoDup tas /\ (forall c, In c l -> c_kind c = FNew) /\ In (m, t) tas /\
  (forall m' t', In (m', t') tas -> ToC t' = ToC t -> (m', t') = (m, t)) /\
  find_ref [MD m; TA t] (defs st) = Some d /\ ToC t = "B_T" /\ def_name d = "B_T_1".
Proof.
  exists [("A", "T"); ("B", "T"); ("B", "B-T")], [mkcall Primitive [MD "B"; TA "B-T"] FNew].
  eexists _, _, "B", "B-T", _.
  split; [vm_compute; reflexivity|]. split; [repeat constructor; cbn; intuition congruence|].
  split; [intros c [<-|[]]; reflexivity|]. split; [cbn; auto|].
  split; [intros m' t' H E; cbn in H; destruct H as [H|[H|[H|[]]]]; injection H as <- <-; try discriminate E; reflexivity|].
  split; [vm_compute; reflexivity|]. split; reflexivity.
Qed.

(** Types and functions share the name space of C: T-Encode is a type and the encoder of T. *)
Theorem C69_functions_refuted : exists tas l ds st i j d e,
  merge 9 "" tas l = Ok (ds, st) /\ NoDup tas /\ (forall c, In c l -> c_kind c = FNew) /\
  find_ref i (defs st) = Some d /\ find_ref j (defs st) = Some e /\ In (def_name e) (functions (def_name d)).
Proof.
  exists [("M", "T"); ("M", "T-Encode")], [mkcall Primitive [MD "M"; TA "T"] FNew; mkcall Primitive [MD "M"; TA "T-Encode"] FNew].
  eexists _, _, [MD "M"; TA "T"], [MD "M"; TA "T-Encode"], _, _.
  split; [vm_compute; reflexivity|]. split; [repeat constructor; cbn; intuition congruence|].
  split; [intros c [<-|[<-|[]]]; reflexivity|]. split; [vm_compute; reflexivity|]. split; [vm_compute; reflexivity|]. cbn. auto.
Qed.

(** Nor are the types of the run-time library left alone. *)
Theorem C69_library_refuted : exists tas l ds st i d,
  merge 9 "" tas l = Ok (ds, st) /\ NoDup tas /\ (forall c, In c l -> c_kind c = FNew) /\
  find_ref i (defs st) = Some d /\ In (def_name d) rtl_types.
Proof.
  exists [("M", "Token")], [mkcall Primitive [MD "M"; TA "Token"] FNew].
  eexists _, _, [MD "M"; TA "Token"], _.
  split; [vm_compute; reflexivity|]. split; [repeat constructor; cbn; intuition congruence|].
  split; [intros c [<-|[]]; reflexivity|]. split; [vm_compute; reflexivity|]. cbn. auto 6.
Qed.

(** registerPrimitiveTypeDefinition forgets the names reserved for the base of a subtype (line 146
    uses us, not ns1), which would matter if the base were not a type assignment. *)
Theorem C69_base_refuted : exists tas l ds st i j d e,
  merge 9 "" tas l = Ok (ds, st) /\ NoDup tas /\ (forall c s, In c l -> c_kind c = FSub s -> s <> c_id c) /\
  find_ref i (defs st) = Some d /\ find_ref j (defs st) = Some e /\ i <> j /\ def_name d = def_name e.
Proof.
  exists [("M", "A"); ("M", "B")], [mkcall Primitive [MD "M"; TA "A"; SEQ_CHILD "x" false] (FSub [MD "M"; TA "B"; SEQ_CHILD "x" false])].
  eexists _, _, [MD "M"; TA "A"; SEQ_CHILD "x" false], [MD "M"; TA "B"; SEQ_CHILD "x" false], _, _.
  split; [vm_compute; reflexivity|]. split; [repeat constructor; cbn; intuition congruence|].
  split; [intros c s [<-|[]] E; injection E as <-; discriminate|]. split; [vm_compute; reflexivity|].
  split; [vm_compute; reflexivity|]. split; [discriminate|]. reflexivity.
Qed.

(** The name that a type wants: that of a type assignment has the prefix, that of a component is
    the name of the type it belongs to, as it is called in C, followed by its own. *)
Theorem C69_proposed : forall tp us,
  (forall m t, proposed tp us [MD m; TA t] = Ok (ToC (tp ++ t), t)) /\
  (forall i d n o, (exists m t r, i = MD m :: TA t :: r) -> find_ref i (defs us) = Some d ->
     proposed tp us (i ++ [SEQ_CHILD n o]) = Ok (ToC (def_name d ++ "_" ++ n), (def_asn1 d ++ "-" ++ n)%string)).
Proof.
  intros tp us. split; [reflexivity|]. intros i d n o (m & t & r & ->) F. unfold proposed.
  rewrite rev_app_distr. cbn [rev app tl]. change (rev r ++ [TA t]) with (rev (TA t :: r)).
  change (rev (TA t :: r) ++ [MD m]) with (rev (MD m :: TA t :: r)). rewrite rev_involutive.
  destruct r; cbn [app bind]; rewrite F; reflexivity.
Qed.
Example C69_proposed_ex : exists ds st d e,
  merge 9 "P-" [("M", "My-T"); ("N", "My-T")] [mkcall Sequence [MD "N"; TA "My-T"] FNew; mkcall Sequence [MD "N"; TA "My-T"; SEQ_CHILD "a-b" false] FNew] = Ok (ds, st) /\
  find_ref [MD "N"; TA "My-T"] (defs st) = Some d /\ find_ref [MD "N"; TA "My-T"; SEQ_CHILD "a-b" false] (defs st) = Some e /\
  def_names d = ["N_P_My_T"; "P_My_T_exist"; "P_My_T_extension_function_positions"] /\ def_name e = "N_P_My_T_a_b".
Proof. eexists _, _, _, _. vm_compute. repeat split; reflexivity. Qed.
(** After the overflow the numbers go on below zero; a path without a module is an error. *)
Example C69_below_zero : next_count "T_-2147483648" = "T_-2147483647".
Proof. vm_compute. reflexivity. Qed.
Example C69_no_module : merge 9 "" [] [mkcall Primitive [TA "T"] (FRTL (Some ("", "asn1SccSint", "INTEGER")))] = Raise.
Proof. vm_compute. reflexivity. Qed.

(** * Assumptions of all theorems above *)
Definition theorems28 := (
  @C69_reserve, @C69_unique, @C69_answers, @C69_plain, @C69_returns_partial, @C69_overflow_refuted,
  @C69_own_name_refuted, @C69_functions_refuted, @C69_library_refuted, @C69_base_refuted, @C69_proposed).
Print Assumptions theorems28.
