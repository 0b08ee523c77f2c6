(** C73: references between modules. Statements only. *)
From Coq Require Import List String.
From Verif Require Import Topo TopoSpec Modules ModulesSpec.
From Verif Require ModulesProofs ModulesProofs2.
Import ListNotations.
Local Open Scope string_scope.
Local Open Scope list_scope.

(** What CheckFiles accepts, exactly. *)
Theorem C73_check_exact : forall ada ast, CheckFiles ada ast = None <-> well_formed ada ast.
Proof. exact ModulesProofs.check_exact. Qed.
(** What the front end accepts, exactly, when names are not defined twice; and it accepts
    nothing else. *)
Theorem C73_accepted_exact : forall ada ms ast, NoDup (map m_name ms) -> (forall m, In m ms -> NoDup (map fst (m_types m))) ->
  front_end ada ms = inr ast <->
  (forall m n t r b x, In m ms -> In (n, t) (m_types m) -> uses t r -> denotes m r b x ->
    exists m', In m' ms /\ m_name m' = b /\ defines m' x) /\
  (exists order, NoDup order /\ (forall b n, In (b, n) order <-> exists m, In m ms /\ m_name m = b /\ defines m n) /\
    forall m n t, In m ms -> In (n, t) (m_types m) ->
      exists before rest, order = before ++ (m_name m, n) :: rest /\
        forall r b x, uses t r -> denotes m r b x -> In (b, x) before) /\
  ast = map (CreateAsn1Module ms) ms /\ well_formed ada ast.
Proof. exact ModulesProofs2.front_exact. Qed.
Theorem C73_accepted_names : forall ada ms ast, front_end ada ms = inr ast -> NoDup (map m_name ms) /\
  forall m, In m ms -> NoDup (map fst (m_types m)).
Proof. exact ModulesProofs.accepted_names. Qed.
(** Every name that is used is imported from a module that defines it, or is defined in
    the module; unless it is the name of a module that is imported from. *)
Theorem C73_plain_names : forall ada ms ast m n t x, front_end ada ms = inr ast -> In m ms -> In (n, t) (m_types m) -> uses t (Plain x) ->
  (forall c, In c (m_imports m) -> c_mod c <> x) ->
  (exists b m', imports m b x /\ In m' ms /\ m_name m' = b /\ defines m' x) \/ (forall b, ~ imports m b x) /\ defines m x.
Proof. exact ModulesProofs.plain. Qed.
(** The imports of a module: those written, and the types of other modules it uses. *)
Theorem C73_imports : forall ms m, NoDup (map c_mod (m_imports m)) ->
  (forall b x, imports (CreateAsn1Module ms m) b x <-> imports m b x \/ refers ms (m_name m) b x) /\
  (forall b x, imports_val (CreateAsn1Module ms m) b x <-> imports_val m b x).
Proof. exact ModulesProofs2.merged_imports. Qed.
(** Once the modules are accepted, the search for a type ends, and finds exactly what is
    defined in the module or imported into it. *)
Theorem C73_lookup : forall ada ast m n f, CheckFiles ada ast = None -> In m ast ->
  (forall b t, GetTypeAssignmentByName (S (S f)) ast m n = Found b t <->
    exists m', In m' ast /\ m_name m' = b /\ In (n, t) (m_types m') /\ (m' = m \/ imports m b n)) /\
  (GetTypeAssignmentByName (S (S f)) ast m n = NotDefined <-> ~ defines m n /\ forall b, ~ imports m b n) /\
  GetTypeAssignmentByName (S (S f)) ast m n <> Endless /\
  (forall b, GetTypeAssignmentByName (S (S f)) ast m n <> UnknownModule b).
Proof. exact ModulesProofs.lookup_exact. Qed.

(** M: IMPORTS T, v FROM B; S ::= SEQUENCE { a T, b SEQUENCE OF U, c C.W }, U ::= INTEGER, u U ::= 1;
    B: EXPORTS T, v; T ::= CHOICE { a INTEGER }, v T ::= 1; C: W ::= BOOLEAN *)
Definition sample : list (smodule rname) :=
  [SMod "M" [("S", SSeq [SRef (Plain "T"); SOf (SRef (Plain "U")); SRef (Ext "C" "W")]); ("U", SOther)] [("u", SRef (Plain "U"))]
     [Clause "B" ["T"] ["v"]] None;
   SMod "B" [("T", SSeq [SOther])] [("v", SRef (Plain "T"))] [] (Some ["T"; "v"]);
   SMod "C" [("W", SOther)] [] [] None].
Definition sample_ast : list amodule :=
  [SMod "M" [("S", SSeq [SRef ("B", "T"); SOf (SRef ("M", "U")); SRef ("C", "W")]); ("U", SOther)] [("u", SRef ("M", "U"))]
     [Clause "C" ["W"] []; Clause "B" ["T"] ["v"]] None;
   SMod "B" [("T", SSeq [SOther])] [("v", SRef ("B", "T"))] [] (Some ["T"; "v"]);
   SMod "C" [("W", SOther)] [] [] None].
Example C73_example : front_end true sample = inr sample_ast /\ CheckFiles true sample_ast = None /\
  NoDup (map m_name sample) /\ (forall m, In m sample -> NoDup (map fst (m_types m))) /\
  (forall m, In m sample -> NoDup (map c_mod (m_imports m))) /\
  let m := nth 0 sample_ast (SMod "" [] [] [] None) in
  GetTypeAssignmentByName 2 sample_ast m "T" = Found "B" (SSeq [SOther]) /\
  GetTypeAssignmentByName 2 sample_ast m "U" = Found "M" SOther /\
  GetTypeAssignmentByName 2 sample_ast m "W" = Found "C" SOther /\ GetTypeAssignmentByName 2 sample_ast m "X" = NotDefined.
Proof.
  split; [reflexivity|]. split; [reflexivity|]. split; [repeat constructor; cbn; intuition discriminate|].
  split; [|split; [|repeat split; reflexivity]]; intros m [<-|[<-|[<-|[]]]]; repeat constructor; cbn; intuition discriminate.
Qed.
(** Every error, and what it is raised for. *)
Example C73_errors :
  let M T I E := SMod "M" T [] I E in let B T V E := SMod "B" T V [] E in
  front_end true [M [("S", SRef (Plain "T"))] [] None] = inl (OrphanType "M" "T") /\
  front_end true [M [("S", SOf (SRef (Plain "T"))); ("T", SRef (Plain "S"))] [] None] = inl CyclicTypes /\
  front_end true [M [] [] None; M [] [] None] = inl (Duplicate "M") /\
  front_end true [M [("S", SOther); ("S", SOther)] [] None] = inl (Duplicate "S") /\
  front_end true [M [("Sa", SOther); ("SA", SOther)] [] None] = inl (DuplicateCI "Sa") /\
  front_end false [M [("Sa", SOther); ("SA", SOther)] [] None] = inr [SMod "M" [("Sa", SOther); ("SA", SOther)] [] [] None] /\
  front_end true [M [("T", SOther)] [Clause "B" ["T"] []] None; B [("T", SOther)] [] None] = inl (Duplicate "T") /\
  front_end true [M [] [Clause "B" ["T"] []] None; B [("T", SOther)] [] (Some ["U"])] = inl (PrivateType "B" "T") /\
  front_end true [M [] [Clause "B" ["T"] []] None; B [] [] None] = inl (MissingType "B" "T") /\
  front_end true [M [] [Clause "B" [] ["v"]] None; B [] [("v", SOther)] (Some ["U"])] = inl (PrivateVal "B" "v") /\
  front_end true [M [] [Clause "B" [] ["v"]] None; B [] [] None] = inl (MissingVal "B" "v") /\
  front_end true [SMod "M" [] [("v", SOther); ("v", SOther)] [] None] = inl (Duplicate "v") /\
  front_end true [SMod "M" [] [("va", SOther); ("vA", SOther)] [] None] = inl (DuplicateCI "va") /\
  front_end true [SMod "M" [] [("v", SOther)] [Clause "B" [] ["v"]] None; B [] [("v", SOther)] None] = inl (Duplicate "v") /\
  front_end true [SMod "M" [] [("v", SRef (Plain "T"))] [] None] = inl (NoType "M" "T") /\
  front_end true [SMod "M" [] [("v", SRef (Ext "B" "T"))] [] None] = inl (NoModule "B") /\
  front_end true [M [("S", SRef (Ext "B" "T"))] [] None; B [("T", SOther)] [] (Some ["U"])] = inl (NoType "B" "T").
Proof. repeat split. Qed.

(** A module with an EXPORTS clause cannot use its own types that are not exported:
    M: EXPORTS A; A ::= SEQUENCE { b B }, B ::= INTEGER. *)
Theorem C73_private_refuted : exists ms, ms = [SMod "M" [("A", SSeq [SRef (Plain "B")]); ("B", SOther)] [] [] (Some ["A"])] /\
  front_end true ms = inl (NoType "M" "B").
Proof. eexists. split; reflexivity. Qed.
(** M.T may not be used in a module that has another T, nor together with a T of a third
    module, which is what such references are for. *)
Theorem C73_external_refuted : exists ms ms',
  ms = [SMod "M" [("T", SSeq [SRef (Ext "B" "T")])] [] [] None; SMod "B" [("T", SOther)] [] [] None] /\
  ms' = [SMod "M" [("S", SSeq [SRef (Ext "A" "T"); SRef (Ext "B" "T")])] [] [] None;
         SMod "A" [("T", SOther)] [] [] None; SMod "B" [("T", SOther)] [] [] None] /\
  front_end true ms = inl (Duplicate "T") /\ front_end true ms' = inl (Duplicate "T").
Proof. eexists. eexists. split; [reflexivity|]. split; [reflexivity|]. split; reflexivity. Qed.
(** The name of a module that is imported from hides the type of that name. The own type
    Pos of M is not found; or the type Pos of the module Pos is taken although M does not
    import it, even for a value where M has its own Pos. *)
Theorem C73_module_name_refuted : exists ms ms' ms'' ast,
  ms = [SMod "M" [("Pos", SOther); ("S", SRef (Plain "Pos"))] [] [Clause "Pos" ["X"] []] None; SMod "Pos" [("X", SOther)] [] [] None] /\
  front_end true ms = inl (OrphanType "Pos" "Pos") /\
  ms' = [SMod "M" [("S", SRef (Plain "Pos"))] [] [Clause "Pos" ["X"] []] None; SMod "Pos" [("X", SOther); ("Pos", SOther)] [] [] None] /\
  (exists ast', front_end true ms' = inr ast') /\
  ms'' = [SMod "M" [("Pos", SOther)] [("v", SRef (Plain "Pos"))] [Clause "Pos" ["X"] []] None; SMod "Pos" [("X", SOther); ("Pos", SOf SOther)] [] [] None] /\
  front_end true ms'' = inr ast /\ map (fun m => m_vals m) ast = [[("v", SRef ("Pos", "Pos"))]; []].
Proof. repeat eexists; reflexivity. Qed.
(** Imported types are not exported again, although ExportedTypes has them. *)
Theorem C73_reexport_refuted : exists ms ms' b,
  b = [SMod "B" [] [] [Clause "A" ["T"] []] (Some ["T"]); SMod "A" [("T", SOther)] [] [] None] /\
  ms = SMod "M" [("S", SRef (Plain "T"))] [] [Clause "B" ["T"] []] None :: b /\
  ms' = SMod "M" [] [] [Clause "B" ["T"] []] None :: b /\
  front_end true ms = inl (OrphanType "B" "T") /\ front_end true ms' = inl (MissingType "B" "T") /\
  exists ast, front_end true b = inr ast.
Proof. repeat eexists; reflexivity. Qed.
(** A module may export what it does not have; a value of such a type is accepted. *)
Theorem C73_export_refuted : exists ms ast,
  ms = [SMod "M" [] [("v", SRef (Ext "B" "T"))] [] None; SMod "B" [] [] [] (Some ["T"])] /\ front_end true ms = inr ast /\
  forall m, In m ast -> GetTypeAssignmentByName 2 ast m "T" = NotDefined.
Proof. eexists. eexists. split; [reflexivity|]. split; [reflexivity|]. intros m [<-|[<-|[]]]; reflexivity. Qed.
(** Two modules may not import from each other, even when no type depends on itself. *)
Theorem C73_mutual_refuted : exists ms,
  ms = [SMod "A" [("S", SRef (Plain "U")); ("T", SOther)] [] [Clause "B" ["U"] []] None;
        SMod "B" [("U", SOther); ("V", SRef (Plain "T"))] [] [Clause "A" ["T"] []] None] /\
  orphans ms = None /\ cyclic_types ms = None /\ front_end true ms = inl CyclicModules.
Proof. eexists. repeat split; reflexivity. Qed.
(** The message for an import from a module that does not exist is never given: the
    module is said to be part of a cycle. *)
Theorem C73_missing_module_refuted : (forall ada ast b, CheckFiles ada ast <> Some (NoImported b)) /\
  front_end true [SMod "M" [] [] [Clause "B" ["T"] []] None] = inl CyclicModules.
Proof. split; [exact ModulesProofs2.never_missing|reflexivity]. Qed.
(** Of two clauses for the same module, one is dropped when a type of the module is used. *)
Theorem C73_second_clause_refuted : exists ms ast m,
  ms = [m; SMod "B" [("T", SOther)] [("v", SOther)] [] None] /\
  m = SMod "M" [("S", SRef (Plain "T"))] [] [Clause "B" ["T"] []; Clause "B" [] ["v"]] None /\
  front_end true ms = inr ast /\ imports_val m "B" "v" /\ map (fun m => m_imports m) ast = [[Clause "B" ["T"] []]; []].
Proof.
  eexists. eexists. eexists. split; [reflexivity|]. split; [reflexivity|]. split; [reflexivity|]. split; [|reflexivity].
  exists (Clause "B" [] ["v"]). repeat split; [right; left; reflexivity|left; reflexivity].
Qed.
(** Before CheckFiles has been passed, the search may not end. *)
Theorem C73_endless_refuted : exists ast, CheckFiles true ast = Some CyclicModules /\
  forall fuel m, In m ast -> GetTypeAssignmentByName fuel ast m "T" = Endless.
Proof. exists ModulesProofs2.loop_ast. split; [reflexivity|exact ModulesProofs2.loops]. Qed.

(** * Assumptions of all theorems above *)
Definition theorems32 := (
  @C73_check_exact, @C73_accepted_exact, @C73_accepted_names, @C73_plain_names, @C73_imports,
  @C73_lookup, @C73_private_refuted, @C73_external_refuted, @C73_module_name_refuted,
  @C73_reexport_refuted, @C73_export_refuted, @C73_mutual_refuted, @C73_missing_module_refuted,
  @C73_second_clause_refuted, @C73_endless_refuted).
Print Assumptions theorems32.
