(** C67: parameterized types. *)
From Verif Require Import Params ParamsSpec ParamsProofs ParamsProofs2 ParamsProofs3 ParamsProofs4 ParamsProofs5 ParamsProofs6.
From Coq Require Import List String Ascii Bool ZArith Lia.
Import ListNotations.
Local Open Scope string_scope.
Local Open Scope list_scope.

Definition int : ptype := PT (KBase BInt) [].
Definition ref (n : string) : pexp := ERef "M" n.
Definition ty (n : string) : ptype := PT (KRef "M" n None []) [].
Definition inst (n : string) (args : list parg) : ptype := PT (KRef "M" n None args) [].
Definition upto (z : Z) : pcon := CRange (EInt 0) (EInt z) true true.

(** A grammar with templates, one used within the other:
<<
  Table {INTEGER:len, Item} ::= SEQUENCE (SIZE (1..len)) OF Item
  Pair {Left, Right} ::= SEQUENCE { left Left, rights Table {3, Right}, mode Mode DEFAULT on }
  Mode ::= ENUMERATED { on, off }
  Small ::= INTEGER (0..10)
  Data ::= SEQUENCE { p Pair {Small, INTEGER (0..max)}, q Table {max, Table {2, Small}} }
>> *)
Definition sample : grammar := [("M", [
  mktas "Table" [PVal "len"; PType "Item"] (PT (KOf (ty "Item")) [CSize (CRange (EInt 1) (ref "len") true true)]);
  mktas "Pair" [PType "Left"; PType "Right"] (PT (KSeq [Child "left" Mandatory (ty "Left");
     Child "rights" Mandatory (inst "Table" [AVal (EInt 3); AParam "Right"]); Child "mode" (Default (ref "on")) (ty "Mode")]) []);
  mktas "Mode" [] (PT (KEnum ["on"; "off"]) (default_con "M" ["on"; "off"]));
  mktas "Small" [] (PT (KBase BInt) [upto 10]);
  mktas "Data" [] (PT (KSeq [
     Child "p" Mandatory (inst "Pair" [AType (ty "Small"); AType (PT (KBase BInt) [CRange (EInt 0) (ref "max") true true])]);
     Child "q" Mandatory (inst "Table" [AVal (ref "max"); AType (inst "Table" [AVal (EInt 2); AType (ty "Small")])])]) [])])].
Definition sample_table (n : pexp) (t : ptype) : ptype := PT (KOf t) [CSize (CRange (EInt 1) n true true)].
Definition sample_done : grammar := [("M", [
  mktas "Mode" [] (PT (KEnum ["on"; "off"]) (default_con "M" ["on"; "off"]));
  mktas "Small" [] (PT (KBase BInt) [upto 10]);
  mktas "Data" [] (PT (KSeq [
     Child "p" Mandatory (PT (KSeq [Child "left" Mandatory (ty "Small");
        Child "rights" Mandatory (sample_table (EInt 3) (PT (KBase BInt) [CRange (EInt 0) (ref "max") true true]));
        Child "mode" (Default (ref "on")) (ty "Mode")]) []);
     Child "q" Mandatory (sample_table (ref "max") (sample_table (EInt 2) (ty "Small")))]) [])])].
Example C67_sample_done : forall f, do_grammar sample (3 + f) = Done sample_done.
Proof. intros f. reflexivity. Qed.
Example C67_sample_acyclic : acyclic sample.
Proof.
  exists (fun _ T => match assoc T [("Table", 1); ("Pair", 2); ("Mode", 0); ("Small", 0); ("Data", 3)] with Some n => n | None => 0 end).
  intros m T ta m' T' L U K. apply lookup_in in L. destruct L as ([m0 l] & H1 & H2 & <- & <-).
  destruct H1 as [[= <- <-]|[]]. simpl in H2.
  repeat (destruct H2 as [<-|H2]); try contradiction; simpl in U;
    repeat (destruct U as [[= <- <-]|U]; [try (exfalso; apply K; reflexivity); simpl; lia|]); try contradiction.
Qed.
Example C67_sample_distinct : distinct sample.
Proof.
  intros m l [[= <- <-]|[]]. simpl. repeat (constructor; [simpl; intros K; repeat (destruct K as [K|K]; [discriminate|]); exact K|]). constructor.
Qed.
Ltac tidy_tac := simpl; repeat match goal with
  | |- _ /\ _ => split
  | |- True => exact I
  | |- apart _ _ => let n := fresh in let A := fresh in let B := fresh in intros n A B; simpl in A, B;
       repeat (destruct A as [A|A]; [subst; repeat (destruct B as [B|B]; [discriminate|]); contradiction|]); contradiction
  | |- _ -> _ => let H := fresh in intros H
  | |- forall _, _ => intro
  | H : False |- _ => contradiction
  | H : _ = _ |- _ => first [discriminate H | subst; clear H]
  | H : _ \/ _ |- _ => destruct H
  | |- _ = _ => reflexivity
  | |- _ \/ _ => tauto
  | H : In _ _ |- _ => simpl in H
  end.
Example C67_sample_hygienic : hygienic sample.
Proof.
  split.
  - intros m T H. unfold lookup. cbn [assoc sample]. destruct (String.eqb "M" m); [|reflexivity].
    simpl in H. repeat (destruct H as [<-|H]; [reflexivity|]). contradiction.
  - intros md a [<-|[]] H. simpl in H.
    repeat (destruct H as [<-|H]; [solve [tidy_tac]|]). contradiction.
Qed.

(** ** Results *)
(** The result gives each remaining type the values it had, with all meanings of the grammar. *)
Theorem C67_same_meaning : forall r f r' P V, do_grammar r f = Done r' -> hygienic r -> distinct r -> model r P V -> model r' P V.
Proof. exact same_meaning. Qed.
Theorem C67_same_type : forall r P V f cur t t', model r P V -> hygienic r -> do_type r f cur t = Done t' -> tidy (params_of r) [] t ->
  forall v, has P V [] t' v <-> has P V [] t v.
Proof. exact same_type. Qed.
(** No parameters and no actual parameters are left. *)
Theorem C67_no_parameters : forall r f r' md a, do_grammar r f = Done r' -> hygienic r -> acyclic r ->
  In md r' -> In a (snd md) -> ta_params a = [] /\ plain (ta_type a).
Proof. exact plain_result. Qed.
(** The types that had no parameters are all there, in the same order. *)
Theorem C67_same_names : forall r f r', do_grammar r f = Done r' ->
  Forall2 (fun md md' => fst md' = fst md /\
    map ta_name (snd md') = map ta_name (filter (fun a => match ta_params a with [] => true | _ => false end) (snd md))) r r'.
Proof. exact names_kept. Qed.
(** Grammars without cycles have a meaning, and only one. *)
Theorem C67_meaning_exists : forall r V, acyclic r -> exists P, model r P V.
Proof. exact meaning_exists. Qed.
Theorem C67_meaning_unique : forall r V P Q, acyclic r -> model r P V -> model r Q V ->
  (forall m T a v, lookup r m T = None -> P m T a v <-> Q m T a v) -> forall m T a v, P m T a v <-> Q m T a v.
Proof. exact meaning_unique. Qed.
Example C67_sample_meaning : forall V, exists P, model sample P V /\ model sample_done P V.
Proof.
  intros V. destruct (C67_meaning_exists sample V C67_sample_acyclic) as [P M]. exists P. split; [exact M|].
  exact (C67_same_meaning _ _ _ _ _ (C67_sample_done 0) C67_sample_hygienic C67_sample_distinct M).
Qed.
Example C67_sample_values : forall P V, (forall v, V "M" "max" v <-> v = VInt 4) -> model sample P V ->
  P "M" "Data" [] (VSeq [("p", Given (VSeq [("left", Given (VInt 9)); ("rights", Given (VList [VInt 4])); ("mode", Defaulted (VEnum ["on"; "off"] "on"))]));
                         ("q", Given (VList [VList [VInt 10]; VList [VInt 0; VInt 1]]))]).
Proof.
  intros P V Hm M. pose proof (C67_same_meaning _ _ _ _ _ (C67_sample_done 0) C67_sample_hygienic C67_sample_distinct M) as M'.
  assert (Sm : forall z, (0 <= z <= 10)%Z -> P "M" "Small" [] (VInt z)).
  { intros z Hz. apply (m_def _ _ _ M' "M" "Small" (mktas "Small" [] (PT (KBase BInt) [upto 10])) [] _ eq_refl).
    split; [constructor|]. simpl. split; [exact I|]. split; [|exact I]. exists (VInt 0), (VInt 10). split; [reflexivity|]. split; [reflexivity|].
    split; do 2 eexists; (split; [reflexivity|]); (split; [reflexivity|]); lia. }
  assert (Mo : P "M" "Mode" [] (VEnum ["on"; "off"] "on")).
  { apply (m_def _ _ _ M' "M" "Mode" (mktas "Mode" [] (PT (KEnum ["on"; "off"]) (default_con "M" ["on"; "off"]))) [] _ eq_refl).
    split; [constructor|]. simpl. split; [exists "on"; split; [left; reflexivity | reflexivity]|]. split; [left; reflexivity | exact I]. }
  refine (proj2 (m_def _ _ _ M' "M" "Data" _ [] _ eq_refl) _). split; [constructor|].
  simpl. split; [|exact I]. eexists. split; [reflexivity|]. split; [reflexivity|]. split.
  - split; [|exact I]. eexists. split; [reflexivity|]. split; [reflexivity|]. split; [split; [apply Sm; lia | exact I]|].
    split; [reflexivity|]. split.
    + split; [eexists; split; [reflexivity|]; intros x [<-|[]]; split; [exact I|]; split; [|exact I]|].
      * exists (VInt 0), (VInt 4). split; [reflexivity|]. split; [apply Hm; reflexivity|]. split; do 2 eexists; (split; [reflexivity|]); (split; [reflexivity|]); lia.
      * split; [|exact I]. eexists. split; [reflexivity|]. exists (VInt 1), (VInt 3). split; [reflexivity|]. split; [reflexivity|].
        split; do 2 eexists; (split; [reflexivity|]); (split; [reflexivity|]); simpl; lia.
    + split; [reflexivity|]. split; [|reflexivity]. split; [split; [exact Mo | exact I]|]. eexists. split; [reflexivity|]. reflexivity.
  - split; [reflexivity|]. split; [|reflexivity]. split.
    + eexists. split; [reflexivity|]. intros x Hx.
      assert (K : exists zs, x = VList (map VInt zs) /\ (1 <= Z.of_nat (List.length zs) <= 2)%Z /\ forall z, In z zs -> (0 <= z <= 10)%Z).
      { destruct Hx as [<-|[<-|[]]]; [exists [10%Z] | exists [0%Z; 1%Z]]; (split; [reflexivity|]); (split; [simpl; lia|]);
          intros z Hz; simpl in Hz; lia. }
      destruct K as (zs & -> & Hl & Hz). split.
      * eexists. split; [reflexivity|]. intros y Hy. apply in_map_iff in Hy. destruct Hy as (z & <- & Hy). split; [apply Sm, Hz, Hy | exact I].
      * split; [|exact I]. eexists. split; [reflexivity|]. exists (VInt 1), (VInt 2). split; [reflexivity|]. split; [reflexivity|].
        rewrite map_length. split; do 2 eexists; (split; [reflexivity|]); (split; [reflexivity|]); lia.
    + split; [|exact I]. eexists. split; [reflexivity|]. exists (VInt 1), (VInt 4). split; [reflexivity|]. split; [apply Hm; reflexivity|].
      split; do 2 eexists; (split; [reflexivity|]); (split; [reflexivity|]); simpl; lia.
Qed.

(** The compiler returns when no constraint is extensible. *)
Theorem C67_returns : forall r, acyclic r -> no_extensions r -> exists f0, forall f, f0 <= f -> do_grammar r f <> Endless.
Proof. exact returns. Qed.
Example C67_sample_closed : no_extensions sample.
Proof.
  intros md a [<-|[]] H. simpl in H. repeat (destruct H as [<-|H]; [simpl; repeat (split || constructor)|]). contradiction.
Qed.

(** ** What goes wrong without these conditions *)
(** An extensible constraint in a template: the compiler does not return. *)
Theorem C67_extensible_refuted : exists r, acyclic r /\ hygienic r /\ distinct r /\ forall f, do_grammar r f = Endless.
Proof.
  exists g_ext. split; [|split; [|split; [apply two_distinct | exact ext_endless]]].
  - apply two_acyclic.
    + intros m T [[= <- <-]|[]]. reflexivity.
    + intros m T [[= <- <-]|[]] _. reflexivity.
  - split.
    + intros m T [<-|[]]. unfold lookup, g_ext, two. cbn [assoc]. destruct (String.eqb "M" m); reflexivity.
    + intros md a [<-|[]] H. simpl in H. repeat (destruct H as [<-|H]; [solve [tidy_tac]|]). contradiction.
Qed.
(** OCTET STRING (CONTAINING parameter) becomes the contained type. *)
Theorem C67_contained_refuted : exists r r', do_grammar r 1 = Done r' /\ forall P V, model r P V -> ~ model r' P V.
Proof. exists g_box. exact box_dropped. Qed.
(** Inclusion of, COMPONENTS OF, and SEQUENCE OF a parameter as actual parameter leave the
    parameter where it is, and so a type that does not exist. *)
Theorem C67_components_of_refuted : exists r r', do_grammar r 1 = Done r' /\ dangling r' "M" "Y".
Proof. exists g_comps. exact comps_dangling. Qed.
Theorem C67_inclusion_refuted : exists r r', do_grammar r 1 = Done r' /\ dangling r' "M" "Y".
Proof. exists g_incl. exact incl_dangling. Qed.
Theorem C67_inner_argument_refuted : exists r r', do_grammar r 2 = Done r' /\ dangling r' "M" "Y".
Proof. exists g_arg. exact arg_dangling. Qed.
(** A value parameter passed on is not replaced below the top of the inner template. *)
Theorem C67_passed_value_refuted : exists r, do_grammar r 2 =
  Done [("M", [mktas "A" [] (PT (KSeq [Child "x" Mandatory (PT (KBase BInt) [CSingle (ERef "M" "n")])]) [])])] /\
  ta_params (nth 1 (snd (hd ("", []) r)) (mktas "" [] int)) = [PVal "n"].
Proof. exists g_varg. split; [exact varg_left | reflexivity]. Qed.
(** A parameterized type below the top of an actual parameter stays. *)
Theorem C67_nested_refuted : exists r r', do_grammar r 2 = Done r' /\ dangling r' "M" "U" /\
  ~ (forall md a, In md r' -> In a (snd md) -> plain (ta_type a)).
Proof. exists g_deep. exact deep_kept. Qed.
(** A value of the module named in an actual parameter is mistaken for a parameter of the template. *)
Theorem C67_capture_refuted : exists r r', distinct r /\ do_grammar r 1 = Done r' /\
  forall P V, (forall v, V "M" "n" v <-> v = VInt 10) -> model r P V -> ~ model r' P V.
Proof. exists g_capture. destruct capture as [r' H]. exists r'. split; [apply two_distinct | exact H]. Qed.
(** So is an item of an ENUMERATED. *)
Theorem C67_item_refuted : exists r t, do_grammar r 1 = Done [("M", [mktas "A" [] t])] /\ kind t = KEnum ["red"; "blue"] /\
  forall P V v, has P V [] t v <-> v = VEnum ["red"; "blue"] "blue".
Proof. exists g_item. exact item_lost. Qed.
(** A parameter constrained by a value of the module is refused; by a literal it is not. *)
Theorem C67_bound_refuted : exists g : pexp -> grammar,
  (forall f, do_grammar (g (ERef "M" "max")) (2 + f) = Raise) /\ (forall f z, exists r', do_grammar (g (EInt z)) (2 + f) = Done r').
Proof. exists g_bound. exact bound_refused. Qed.
(** The constraint of a parameter given as actual parameter is dropped. *)
Theorem C67_constrained_argument_refuted : exists ps t, cons_of t <> [] /\ make_arg ps t = make_arg ps (PT (kind t) []) /\
  do_grammar g_carg 2 = Done [("M", [mktas "A" [] (PT (KBase BInt) [])])].
Proof. exists [PType "Y"], (PT (KRef "M" "Y" None []) [CTo (EInt 5) true]). split; [discriminate|]. split; [reflexivity | exact carg_dropped]. Qed.

(** * Assumptions of all theorems above *)
Definition theorems26 := (
  @C67_same_meaning, @C67_same_type, @C67_no_parameters, @C67_same_names, @C67_meaning_exists,
  @C67_meaning_unique, @C67_returns, @C67_extensible_refuted, @C67_contained_refuted,
  @C67_components_of_refuted, @C67_inclusion_refuted, @C67_inner_argument_refuted,
  @C67_passed_value_refuted, @C67_nested_refuted, @C67_capture_refuted, @C67_item_refuted,
  @C67_bound_refuted, @C67_constrained_argument_refuted).
Print Assumptions theorems26.
