(** C65: the names of enumerated items and of choice alternatives. Statements only. *)
From Verif Require Import Names NamesSpec.
From Verif Require NamesProofs3 NamesProofs4 NamesProofs5.
From Coq Require Import String List.
Import ListNotations.
Local Open Scope string_scope.
Local Open Scope list_scope.

(** M: T ::= ENUMERATED {red, int}, U ::= SEQUENCE {c ENUMERATED {red, my-item}, d CHOICE {alt NULL, b NULL}},
    V ::= CHOICE {aLT NULL}; value v *)
Definition nm (s : string) := (s, "").
Definition g1 : nroot :=
  [mkmod "M" [("T", NEnum [nm "red"; nm "int"]);
              ("U", NSeq [("c", NEnum [nm "red"; nm "my-item"]); ("d", NChoice [(nm "alt", NOther); (nm "b", NOther)])]);
              ("V", NChoice [(nm "aLT", NOther)])] ["v"]].
Definition g1' : nroot :=
  [mkmod "M" [("T", NEnum [("red", "T_red"); ("int", "T_int")]);
              ("U", NSeq [("c", NEnum [("red", "c_red"); ("my-item", "my_item")]); ("d", NChoice [("alt", "d_alt", NOther); ("b", "b", NOther)])]);
              ("V", NChoice [("aLT", "V_aLT", NOther)])] ["v"]].

(** If the renaming ends, with either policy: no two enumerators of the whole grammar have the same
    name, none is one of the listed keywords or the name of a value, no two names of alternatives
    are the same, and nothing but names has changed. *)
Theorem C65_unique : forall pol n r r', DoWork pol n (initial_root r) = Some (Done r') ->
  NoDup (enumerators r' ++ c_keywords) /\ NoDup (presents r') /\ root_shape r' = root_shape r /\
  forall v, In v (flat_map mvalues r) -> ~ In v (enumerators r').
Proof. exact NamesProofs3.names_done. Qed.
Example C65_unique_example : DoWork SelectiveEnumerants 2 (initial_root g1) = Some (Done g1') /\
  enumerators g1' = ["T_red"; "T_int"; "c_red"; "my_item"] /\ presents g1' = ["d_alt_PRESENT"; "b_PRESENT"; "V_aLT_PRESENT"].
Proof. repeat split; vm_compute; reflexivity. Qed.

(** With SelectiveEnumerants, the policy chosen for C if none is given, it ends as soon as no two
    values have the same name and none is a keyword. *)
Theorem C65_ends : forall r, NoDup (flat_map mvalues r ++ c_keywords) -> exists n x, DoWork SelectiveEnumerants n r = Some x.
Proof. exact NamesProofs3.work_finish. Qed.
Example C65_ends_example : NoDup (flat_map mvalues g1 ++ c_keywords) /\ DoWork SelectiveEnumerants 1 (initial_root g1) = None.
Proof.
  split; [|vm_compute; reflexivity].
  repeat (constructor; [cbn; intros H; repeat match goal with H : _ \/ _ |- _ => destruct H as [H|H]; [discriminate|] end; exact H|]). constructor.
Qed.
(** For the alternatives, always. *)
Theorem C65_ends_choices : forall r, finishes (handleEnumChoices SelectiveEnumerants) r.
Proof. exact NamesProofs3.choices_finish. Qed.
Example C65_ends_choices_example : run (handleEnumChoices SelectiveEnumerants) 1 (initial_root g1) = None /\
  exists r, run (handleEnumChoices SelectiveEnumerants) 2 (initial_root g1) = Some (Done r).
Proof. split; [vm_compute; reflexivity|]. eexists. vm_compute. reflexivity. Qed.

(** It puts nothing but parts of the path of an item before its name. *)
Theorem C65_prefixed : forall n r r', DoWork SelectiveEnumerants n (initial_root r) = Some (Done r') ->
  Forall2 only_prefixed (items_of enum_items (initial_root r)) (items_of enum_items r') /\
  Forall2 only_prefixed (items_of choice_items (initial_root r)) (items_of choice_items r').
Proof. exact NamesProofs5.work_prefixed. Qed.
Example C65_prefixed_example : DoWork SelectiveEnumerants 2 (initial_root g1) = Some (Done g1') /\
  items_of enum_items (initial_root g1) = [(["M"; "T"], "red"); (["M"; "T"], "int"); (["M"; "U"; "c"], "red"); (["M"; "U"; "c"], "my_item")].
Proof. split; vm_compute; reflexivity. Qed.

(** One call: which names change, and to what. *)
Theorem C65_call : forall r r', handleEnums SelectiveEnumerants r = Again r' ->
  Forall2 (takes String.eqb (doubleEnumNames0 r ++ c_keywords)) (items_of enum_items r) (items_of enum_items r').
Proof. exact NamesProofs5.enums_takes. Qed.
Example C65_call_example : exists r, handleEnums SelectiveEnumerants (initial_root g1) = Again r /\
  items_of enum_items r = [(["M"; "T"], "T_red"); (["M"; "T"], "T_int"); (["M"; "U"; "c"], "c_red"); (["M"; "U"; "c"], "my_item")].
Proof. eexists. split; vm_compute; reflexivity. Qed.
Theorem C65_call_choices : forall r r', handleEnumChoices SelectiveEnumerants r = Again r' -> Forall (fun s => ToC s = s) (names_of choice_names r) ->
  Forall2 (takes icompare (names_of choice_names r)) (items_of choice_items r) (items_of choice_items r').
Proof. exact NamesProofs5.choices_takes. Qed.
Example C65_call_choices_example : (exists r, handleEnumChoices SelectiveEnumerants (initial_root g1) = Again r /\
  items_of choice_items r = [(["M"; "U"; "d"], "d_alt"); (["M"; "U"; "d"], "b"); (["M"; "V"], "V_aLT")]) /\
  Forall (fun s => ToC s = s) (names_of choice_names (initial_root g1)).
Proof. split; [eexists; split; vm_compute; reflexivity|]. repeat constructor. Qed.

(** It fails exactly if some name that is there twice has all parts of its path in itself. *)
Theorem C65_fails : forall r, handleEnums SelectiveEnumerants r = Raise <->
  exists x, In x (items_of enum_items r) /\ stuck String.eqb (doubleEnumNames0 r ++ c_keywords) x.
Proof. exact NamesProofs5.enums_raise. Qed.
Theorem C65_fails_choices : forall r, handleEnumChoices SelectiveEnumerants r = Raise <->
  exists x, In x (items_of choice_items r) /\ stuck icompare (names_of choice_names r) x.
Proof. exact NamesProofs5.choices_raise. Qed.
Definition g2 : nroot := [mkmod "A" [("An", NEnum [nm "bAnd"]); ("A", NEnum [nm "bAnd"])] []].
Example C65_fails_example : handleEnums SelectiveEnumerants (initial_root g2) = Raise /\
  In (["A"; "A"], "bAnd") (items_of enum_items (initial_root g2)) /\ stuck String.eqb (doubleEnumNames0 (initial_root g2) ++ c_keywords) (["A"; "A"], "bAnd").
Proof.
  split; [vm_compute; reflexivity|]. split; [vm_compute; auto|]. split; [vm_compute; repeat constructor|].
  repeat constructor; exists "b", "nd"; reflexivity.
Qed.
Definition g2c : nroot := [mkmod "A" [("An", NChoice [(nm "bAnd", NOther)]); ("A", NChoice [(nm "bANd", NOther)])] []].
Example C65_fails_choices_example : handleEnumChoices SelectiveEnumerants (initial_root g2c) = Raise.
Proof. vm_compute. reflexivity. Qed.

(** Two calls are enough if the names with the innermost part of the path before them are new. *)
Theorem C65_two_calls : forall r, NoDup (flat_map mvalues r ++ c_keywords) -> NoDup (map candidate (items_of enum_items r)) ->
  (forall x, In x (items_of enum_items r) -> ~ In (candidate x) (doubleEnumNames0 r ++ c_keywords)) ->
  (forall x, In x (items_of enum_items r) -> fst x <> [] /\ contains (ToC (last (fst x) "")) (snd x) = false) ->
  exists r', run (handleEnums SelectiveEnumerants) 2 r = Some (Done r').
Proof. exact NamesProofs4.two_calls. Qed.
Example C65_two_calls_example : let r := initial_root g1 in
  map candidate (items_of enum_items r) = ["T_red"; "T_int"; "c_red"; "c_my_item"] /\
  (forall x, In x (items_of enum_items r) -> ~ In (candidate x) (doubleEnumNames0 r ++ c_keywords)) /\
  (forall x, In x (items_of enum_items r) -> fst x <> [] /\ contains (ToC (last (fst x) "")) (snd x) = false).
Proof.
  cbv zeta. split; [vm_compute; reflexivity|]. split.
  - intros x I J. vm_compute in I.
    repeat (destruct I as [<-|I]; [vm_compute in J; repeat (destruct J as [J|J]; [discriminate|]); exact J|]). exact I.
  - intros x I. vm_compute in I. repeat (destruct I as [<-|I]; [split; [discriminate|reflexivity]|]). destruct I.
Qed.

(** Names that are different already stay. *)
Theorem C65_kept : forall pol r, NoDup (doubleEnumNames0 r ++ c_keywords) -> ForallOrdPairs (fun a b => icompare a b = false) (names_of choice_names r) ->
  DoWork pol 1 r = Some (Done r).
Proof. exact NamesProofs4.nothing_to_do. Qed.
Example C65_kept_example : DoWork AllEnumerants 1 g1' = Some (Done g1') /\ doubleEnumNames0 g1' = ["T_red"; "T_int"; "c_red"; "my_item"; "v"] /\
  ForallOrdPairs (fun a b => icompare a b = false) (names_of choice_names g1').
Proof. repeat split; repeat constructor. Qed.

(** With AllEnumerants all items of a type get the same prefix. *)
Theorem C65_alike : forall n r r', run (handleEnums AllEnumerants) n r = Some (Done r') -> Forall2 one_prefix (groups_of enum_groups r) (groups_of enum_groups r').
Proof. exact NamesProofs5.enums_groups. Qed.
Example C65_alike_example : exists r, run (handleEnums AllEnumerants) 2 (initial_root g1) = Some (Done r) /\
  groups_of enum_groups r = [["T_red"; "T_int"]; ["c_red"; "c_my_item"]].
Proof. eexists. split; vm_compute; reflexivity. Qed.
Theorem C65_alike_choices : forall n r r', run (handleEnumChoices AllEnumerants) n r = Some (Done r') -> Forall2 one_prefix (groups_of choice_groups r) (groups_of choice_groups r').
Proof. exact NamesProofs5.choices_groups. Qed.
Example C65_alike_choices_example : exists r, run (handleEnumChoices AllEnumerants) 2 (initial_root g1) = Some (Done r) /\
  groups_of choice_groups r = [["d_alt"; "d_b"]; ["V_aLT"]].
Proof. eexists. split; vm_compute; reflexivity. Qed.

(** Two modules with a value of the same name: the compiler does not end. *)
Theorem C65_values_refuted : exists r, (forall pol, hangs (handleEnums pol) r) /\ NoDup (map mname r) /\ Forall (fun m => NoDup (mvalues m)) r /\ names_of enum_names r = [].
Proof.
  exists [mkmod "A" [] ["v"]; mkmod "B" [] ["v"]]. split; [intros []; apply NamesProofs4.hang_same; vm_compute; reflexivity|].
  repeat split; repeat constructor; intros []; [discriminate|contradiction].
Qed.
(** With AllEnumerants, two ENUMERATED types with an item of the same name: the prefix is found by
    deleting the name of the item from the new name, everywhere. *)
Theorem C65_deleted_refuted : hangs (handleEnums AllEnumerants) (initial_root [mkmod "M" [("Ta", NEnum [nm "a"]); ("Taa", NEnum [nm "a"])] []]).
Proof. exact NamesProofs4.two_hangs. Qed.
(** With AllEnumerants, CHOICE types within CHOICE types: they are left as they are. *)
Theorem C65_nested_refuted :
  hangs (handleEnumChoices AllEnumerants)
    (initial_root [mkmod "M" [("T", NChoice [(nm "x", NChoice [(nm "p", NOther)])]); ("U", NChoice [(nm "y", NChoice [(nm "p", NOther)])])] []]).
Proof. apply NamesProofs4.hang_same. vm_compute. reflexivity. Qed.
(** An item may not be told from a value: the name of the value is compared as it is in ASN.1. *)
Theorem C65_constant_refuted : exists r r', DoWork SelectiveEnumerants 1 (initial_root r) = Some (Done r') /\
  exists s, In s (enumerators r') /\ In s (constants r').
Proof.
  exists [mkmod "M" [("T", NEnum [nm "my-val"])] ["my-val"]]. eexists. split; [vm_compute; reflexivity|]. exists "my_val". split; vm_compute; auto.
Qed.
(** Nor from an alternative. *)
Theorem C65_present_refuted : exists r r', DoWork SelectiveEnumerants 1 (initial_root r) = Some (Done r') /\
  exists s, In s (enumerators r') /\ In s (presents r').
Proof.
  exists [mkmod "M" [("T", NEnum [nm "a-PRESENT"]); ("U", NChoice [(nm "a", NOther)])] []]. eexists. split; [vm_compute; reflexivity|].
  exists "a_PRESENT". split; vm_compute; auto.
Qed.
(** Nor from a keyword: the list has those of C89. *)
Theorem C65_keyword_refuted : exists r r', DoWork SelectiveEnumerants 1 (initial_root r) = Some (Done r') /\
  exists s, In s (enumerators r') /\ In s c99_keywords.
Proof.
  exists [mkmod "M" [("T", NEnum [nm "inline"; nm "restrict"])] []]. eexists. split; [vm_compute; reflexivity|].
  exists "inline". split; vm_compute; tauto.
Qed.
(** And correct grammars are refused: here two components of a SEQUENCE have items of the same name,
    and every part of the paths to them occurs in it. *)
Theorem C65_refused_refuted : exists r, DoWork SelectiveEnumerants 3 (initial_root r) = Some Error /\ NoDup (flat_map mvalues r ++ c_keywords).
Proof.
  exists [mkmod "Mo" [("Mo-Ty", NSeq [("mo", NEnum [nm "one-Mo-Ty-mo"]); ("on", NEnum [nm "one-Mo-Ty-mo"])])] []]. split; [vm_compute; reflexivity|].
  repeat (constructor; [cbn; intros H; repeat match goal with H : _ \/ _ |- _ => destruct H as [H|H]; [discriminate|] end; exact H|]). constructor.
Qed.

(** * Assumptions of all theorems above *)
Definition theorems24 := (
  @C65_unique, @C65_ends, @C65_ends_choices, @C65_prefixed, @C65_call, @C65_call_choices, @C65_fails,
  @C65_fails_choices, @C65_two_calls, @C65_kept, @C65_alike, @C65_alike_choices, @C65_values_refuted,
  @C65_deleted_refuted, @C65_nested_refuted, @C65_constant_refuted, @C65_present_refuted,
  @C65_keyword_refuted, @C65_refused_refuted).
Print Assumptions theorems24.
