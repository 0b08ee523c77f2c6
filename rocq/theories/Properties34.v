(** C75: names of the components of SEQUENCE, SET and CHOICE types in C. *)
From Verif Require Import Names NamesSpec FieldNames FieldNamesSpec FieldNamesProofs FieldNamesProofs2.
From Coq Require Import String Ascii List Bool Arith.
Import ListNotations.
Local Open Scope string_scope.
Local Open Scope list_scope.

(** Which names are accepted. *)
Theorem C75_exact : forall a r, CheckAllFields a r = None <-> forall m ch l, structs_of r m ch l -> acceptable a r m ch l.
Proof. exact check_ok. Qed.
(** The keywords of Ada are those of Ada 2012. *)
Theorem C75_ada_words : forall w, In w ada_keywords <-> In w ada2012.
Proof. exact ada_words. Qed.
(** Without --field-prefix: the names in each struct are distinct and none of the keywords that the
    compiler knows. *)
Theorem C75_distinct : forall a r n, a_field a = None -> identifiers r -> as_read r -> CheckAllFields a r = None ->
  exists r', FieldWork a n r = Some (FDone r') /\ all_paths r' = all_paths r /\
  forall m ch l, structs_of r' m ch l -> NoDup (cnames l) /\ (a_keyw a = true -> forall n, In n (cnames l) -> ~ In n c_keywords).
Proof. exact accepted_work. Qed.
(** With a prefix of the user the names in each struct are distinct. *)
Theorem C75_user_distinct : forall a p r r' n, a_field a = Some (PrefixUser p) -> identifiers r -> as_read r -> CheckAllFields a r = None ->
  FieldWork a n r = Some (FDone r') -> forall m ch l, structs_of r' m ch l -> NoDup (cnames l).
Proof. exact user_names. Qed.
(** With AUTO the keywords, and only they, get as prefix the innermost part of their path that is not part of
    them; no keyword is left; two calls are enough; and there is no exception if modules begin with a
    capital letter. *)
Theorem C75_auto_renamed : forall n r r', auto n r = Some (FDone r') -> Forall2 auto_renamed (all_paths r) (all_paths r').
Proof. exact auto_ok. Qed.
Theorem C75_auto_keywords : forall n r r', auto n r = Some (FDone r') -> forall x, In x (all_paths r') -> ~ In (snd x) c_keywords.
Proof. exact auto_keywords. Qed.
Theorem C75_auto_ends : forall n r, exists x, auto (S (S n)) r = Some x.
Proof. exact auto_ends. Qed.
Theorem C75_auto_total : forall n r, (forall m, In m r -> capital (f_name m) = true) -> exists r', auto (S (S n)) r = Some (FDone r').
Proof. exact auto_total. Qed.
(** With AUTO the names are distinct if no name of a component has a hyphen. *)
Theorem C75_auto_distinct_partial : forall a r r' n, a_field a = Some PrefixAuto -> identifiers r -> as_read r -> CheckAllFields a r = None ->
  (forall m ch l x, structs_of r m ch l -> In x (fnames l) -> contains "-" x = false) ->
  FieldWork a n r = Some (FDone r') -> forall m ch l, structs_of r' m ch l -> NoDup (cnames l).
Proof. exact auto_names. Qed.
(** The tree that is read satisfies the side condition. *)
Theorem C75_read : forall r, as_read (start r).
Proof. exact start_read. Qed.

(** * Examples *)
Definition comp (n : string) (t : fty) : string * string * fty := (n, "", t).
Definition none := FArgs None "" true.
Definition auto_args := FArgs (Some PrefixAuto) "" true.
Definition user (p : string) := FArgs (Some (PrefixUser p)) "" true.
Definition one (t : fty) : froot := start [FMod "My-Module" [("MyType", t)]].
Definition nested : froot :=
  one (FSeq [comp "a-b" FOther; comp "aB" FOther; comp "c" (FOf (FChoice [comp "int" FOther; comp "else" (FSeq [comp "for" FOther])]))]).
Example C75_example :
  CheckAllFields none (one (FSeq [comp "a-b" FOther; comp "aB" FOther; comp "ab" (FChoice [comp "x" FOther])])) = None /\
  CheckAllFields auto_args nested = None /\
  FieldWork auto_args 2 nested = Some (FDone [FMod "My-Module" [("MyType",
    FSeq [("a-b", "a_b", FOther); ("aB", "aB", FOther);
          ("c", "c", FOf (FChoice [("int", "elm_int", FOther); ("else", "elm_else", FSeq [("for", "else_for", FOther)])]))])]]) /\
  FieldWork (user "f_") 2 (one (FSeq [comp "int" FOther])) = Some (FDone [FMod "My-Module" [("MyType", FSeq [("int", "f_int", FOther)])]]).
Proof. repeat split. Qed.
Example C75_errors :
  CheckAllFields none nested = Some (Keyword "int") /\
  CheckAllFields none (one (FOf (FSeq [comp "x" FOther; comp "x" FOther]))) = Some (DupField "x") /\
  CheckAllFields none (one (FChoice [comp "ax" FOther; comp "aX" FOther])) = Some (DupFieldCI "ax") /\
  CheckAllFields none (one (FSeq [comp "record" FOther])) = Some (Keyword "record") /\
  CheckAllFields none (one (FSeq [comp "myType" FOther])) = Some (AlsoType "myType" "MyType") /\
  CheckAllFields none (start [FMod "Mod" [("T", FSeq [comp "mod1" FOther; comp "moD2" FOther])]; FMod "Mod2" []]) = Some (AlsoModule "moD2" "Mod2") /\
  CheckAllFields (FArgs None "" false) (one (FSeq [comp "int" FOther; comp "myType" FOther])) = None.
Proof. repeat split. Qed.
(** The hypotheses of C75_distinct and of C75_auto_distinct_partial are met. *)
Example C75_hypotheses :
  let r := one (FSeq [comp "x" FOther; comp "int" FOther]) in
  identifiers r /\ as_read r /\ CheckAllFields auto_args r = None /\ FieldWork auto_args 2 r = Some (FDone [FMod "My-Module" [("MyType", FSeq [("x", "x", FOther); ("int", "MyType_int", FOther)])]]).
Proof.
  split; [|split; [apply C75_read|split; reflexivity]]. intros m ch l (I & t & It & W) n In_. destruct I as [<-|[]]. destruct It as [<-|[]]. cbn [snd] in W.
  inversion W as [| |? ? c ? Ic W'| |]; subst; [|destruct Ic as [<-|[<-|[]]]; inversion W']. destruct In_ as [<-|[<-|[]]]; reflexivity.
Qed.

(** * What fails *)
(** With AUTO two fields of a struct may have one name: the prefix of a keyword is joined with an
    underscore, which a hyphen becomes as well. *)
Definition clash : froot := one (FSeq [comp "a" (FSeq [comp "int" FOther; comp "a-int" FOther])]).
Theorem C75_auto_refuted : exists r', CheckAllFields auto_args clash = None /\ FieldWork auto_args 2 clash = Some (FDone r') /\
  structs_of r' (hd (FMod "" []) r') false [("int", "a_int", FOther); ("a-int", "a_int", FOther)].
Proof.
  eexists. split; [reflexivity|]. split; [reflexivity|]. split; [left; reflexivity|]. eexists. split; [left; reflexivity|]. cbn [snd].
  eapply w_seq_in; [left; reflexivity|]. apply w_seq.
Qed.
(** With a prefix of the user the check for keywords is left out, but components of components do not get the
    prefix. *)
Theorem C75_user_refuted : exists r' m, CheckAllFields (user "f_") (one (FSeq [comp "a" (FSeq [comp "int" FOther])])) = None /\
  FieldWork (user "f_") 2 (one (FSeq [comp "a" (FSeq [comp "int" FOther])])) = Some (FDone r') /\ structs_of r' m false [("int", "int", FOther)].
Proof.
  eexists. eexists. split; [reflexivity|]. split; [reflexivity|]. split; [left; reflexivity|]. eexists. split; [left; reflexivity|]. cbn [snd].
  eapply w_seq_in; [left; reflexivity|]. apply w_seq.
Qed.
(** The prefix itself may make a keyword. *)
Theorem C75_user_makes_keyword_refuted : exists r' m, CheckAllFields (user "in") (one (FSeq [comp "t" FOther])) = None /\
  FieldWork (user "in") 2 (one (FSeq [comp "t" FOther])) = Some (FDone r') /\ structs_of r' m false [("t", "int", FOther)].
Proof.
  eexists. eexists. split; [reflexivity|]. split; [reflexivity|]. split; [left; reflexivity|]. eexists. split; [left; reflexivity|]. apply w_seq.
Qed.
(** inline and restrict are keywords of C99, but not of the compiler. *)
Theorem C75_c99_refuted : exists n, In n c99_keywords /\ CheckAllFields none (one (FSeq [comp n FOther])) = None /\
  FieldWork auto_args 2 (one (FSeq [comp n FOther])) = Some (FDone (one (FSeq [comp n FOther]))).
Proof. exists "inline". repeat split. cbn. tauto. Qed.
(** A name like that of a module with a hyphen is accepted: only one side of the comparison goes through ToC. *)
Theorem C75_module_refuted : exists m c, ToC (lowers m) = ToC (lowers c) /\
  CheckAllFields none (start [FMod m [("T", FSeq [comp c FOther])]]) = None.
Proof. exists "My-Module", "my-module". split; reflexivity. Qed.
(** Names of a SEQUENCE that differ in case only are accepted. *)
Theorem C75_case_refuted : exists a b, a <> b /\ lowers a = lowers b /\ CheckAllFields none (one (FSeq [comp a FOther; comp b FOther])) = None /\
  CheckAllFields none (one (FChoice [comp a FOther; comp b FOther])) <> None.
Proof. exists "ab", "aB". repeat split; discriminate. Qed.

(** * Assumptions of all theorems above *)
Definition theorems34 := (
  @C75_exact, @C75_ada_words, @C75_distinct, @C75_user_distinct, @C75_auto_renamed, @C75_auto_keywords,
  @C75_auto_ends, @C75_auto_total, @C75_auto_distinct_partial, @C75_read, @C75_auto_refuted,
  @C75_user_refuted, @C75_user_makes_keyword_refuted, @C75_c99_refuted, @C75_module_refuted,
  @C75_case_refuted).
Print Assumptions theorems34.
