(** Modules, their imports and exports, and the references between their types
    (CreateAsn1AstFromAntlrTree.fs, CheckAsn1.fs, Asn1Ast.fs). Names are ASCII strings;
    locations are left out (the equality of StringLoc does not look at them). *)
From Coq Require Import List Ascii String Bool Arith.
From Verif Require Import Topo.
Import ListNotations.
Local Open Scope list_scope.

Notation name := string (only parsing).
(** A type reference as written: T or M.T. *)
Inductive rname := Plain (n : name) | Ext (m n : name).
(** A type; [R]: what a reference is, an [rname] in the source and a pair of module and
    type in the AST. [SSeq]: SEQUENCE and CHOICE. Constraints, parameters, the names of
    components and items are left out. *)
Inductive stype (R : Type) := SOther | SOf (t : stype R) | SSeq (ts : list (stype R)) | SRef (r : R).
Arguments SOther {R}. Arguments SOf {R}. Arguments SSeq {R}. Arguments SRef {R}.
(** ImportedModule and Asn1Module, Asn1Ast.fs:194-211. [m_exports]: None for All. Of a
    value assignment (also those made of the named numbers of INTEGER types) only its name
    and type are kept. *)
Record clause := Clause { c_mod : name; c_types : list name; c_vals : list name }.
Record smodule (R : Type) := SMod { m_name : name; m_types : list (name * stype R); m_vals : list (name * stype R);
  m_imports : list clause; m_exports : option (list name) }.
Arguments SMod {R}. Arguments m_name {R}. Arguments m_types {R}. Arguments m_vals {R}.
Arguments m_imports {R}. Arguments m_exports {R}.

(** What SemanticError or Semantic_Error is raised for. *)
Inductive err :=
| OrphanType (m n : name) | CyclicTypes | CyclicModules | Duplicate (n : name) | DuplicateCI (n : name)
| NoType (m n : name) | NoModule (m : name) | NoImported (m : name)
| PrivateType (m n : name) | MissingType (m n : name) | PrivateVal (m n : name) | MissingVal (m n : name)
| NoFuel.

Definition mem (n : name) (l : list name) : bool := existsb (String.eqb n) l.
(** The first exception raised by Seq.iter. *)
Fixpoint first_err {A} (f : A -> option err) (l : list A) : option err :=
  match l with
  | [] => None
  | x :: l => match f x with None => first_err f l | e => e end
  end.
Definition andthen (a b : option err) : option err := match a with None => b | e => e end.
(** Seq.distinctBy and the keys of Seq.groupBy: first occurrences. *)
Definition distinct (l : list name) : list name := fold_left (fun acc x => if mem x acc then acc else acc ++ [x]) l [].

(** The references of a type: its REFERENCED_TYPE nodes, and the ReferenceType kinds
    reached by CheckType. *)
Fixpoint refs {R} (t : stype R) : list R :=
  match t with
  | SOther => []
  | SOf t => refs t
  | SSeq ts => flat_map refs ts
  | SRef r => [r]
  end.
Fixpoint map_type {R S} (f : R -> S) (t : stype R) : stype S :=
  match t with
  | SOther => SOther
  | SOf t => SOf (map_type f t)
  | SSeq ts => SSeq (map (map_type f) ts)
  | SRef r => SRef (f r)
  end.

(** CreateRefTypeContent, CreateAsn1AstFromAntlrTree.fs:38-50. The children of type UID of
    an IMPORTS_FROM_MODULE node are the name of the module and the names of the types
    (asn1.g, importFromModule). *)
Definition CreateRefTypeContent (md : name) (imports : list clause) (r : rname) : name * name :=
  match r with
  | Ext m n => (m, n)
  | Plain n =>
      match find (fun c => mem n (c_mod c :: c_types c)) imports with
      | Some c => (c_mod c, n)
      | None => (md, n)
      end
  end.

Definition pair_eqb (a b : name * name) : bool := String.eqb (fst a) (fst b) && String.eqb (snd a) (snd b).
(** rootCheckCyclicDeps, CreateAsn1AstFromAntlrTree.fs:947-1011: allTasses (949-973). *)
Definition allTasses (ms : list (smodule rname)) : list ((name * name) * list (name * name)) :=
  flat_map (fun m => map (fun p => ((m_name m, fst p), map (CreateRefTypeContent (m_name m) (m_imports m)) (refs (snd p))))
    (m_types m)) ms.
(** orphanRefTypes and ee, 975-983 *)
Definition orphans (ms : list (smodule rname)) : option err :=
  let tasses := map fst (allTasses ms) in
  first_err (fun r => if existsb (fun p => pair_eqb p r) tasses then None else Some (OrphanType (fst r) (snd r)))
    (flat_map snd (allTasses ms)).
(** implicitlyImportedTypes, 985-993, and its use at 890: those of the module [md]. *)
Definition implicitlyImports (ms : list (smodule rname)) (md : name) : list clause :=
  let rfList := flat_map (fun p => if String.eqb (fst (fst p)) md
                                   then filter (fun r => negb (String.eqb (fst r) md)) (snd p) else []) (allTasses ms) in
  map (fun k => Clause k (distinct (map snd (filter (fun r => String.eqb (fst r) k) rfList))) [])
    (distinct (map fst rfList)).
(** 996-1011 *)
Definition cyclic_types (ms : list (smodule rname)) : option err :=
  match sort_nodes pair_eqb [] (allTasses ms) with
  | Some (inl _) => None
  | Some (inr _) => Some CyclicTypes
  | None => Some NoFuel
  end.
(** mergedImports, CreateAsn1AstFromAntlrTree.fs:891-900 *)
Definition merge1 (curImps : list clause) (iimp : clause) : list clause :=
  match find (fun z => String.eqb (c_mod z) (c_mod iimp)) curImps with
  | Some eimp =>
      Clause (c_mod eimp) (distinct (c_types eimp ++ c_types iimp)) (c_vals eimp)
        :: filter (fun z => negb (String.eqb (c_mod z) (c_mod eimp))) curImps
  | None => iimp :: curImps
  end.
Definition mergedImports (ms : list (smodule rname)) (m : smodule rname) : list clause :=
  fold_left merge1 (implicitlyImports ms (m_name m)) (m_imports m).
(** CreateAsn1Module, 824-910: the parts kept here. *)
Definition CreateAsn1Module (ms : list (smodule rname)) (m : smodule rname) : smodule (name * name) :=
  let f := map (fun p => (fst p, map_type (CreateRefTypeContent (m_name m) (m_imports m)) (snd p))) in
  SMod (m_name m) (f (m_types m)) (f (m_vals m)) (mergedImports ms m) (m_exports m).

(** System.Char.IsUpper of the first character; names are not empty. *)
Definition upper (n : name) : bool :=
  match n with
  | String c _ => (Nat.leb 65 (nat_of_ascii c) && Nat.leb (nat_of_ascii c) 90)%bool
  | EmptyString => false
  end.
(** ToLower *)
Fixpoint lower (n : name) : name :=
  match n with
  | EmptyString => EmptyString
  | String c n => String (if upper (String c n) then ascii_of_nat (nat_of_ascii c + 32) else c) (lower n)
  end.

Definition amodule := smodule (name * name).
Definition imported_types (m : amodule) : list name := flat_map c_types (m_imports m).
Definition imported_vals (m : amodule) : list name := flat_map c_vals (m_imports m).
(** ExportedTypes and ExportedVars, Asn1Ast.fs:237-249 *)
Definition ExportedTypes (m : amodule) : list name :=
  match m_exports m with
  | None => map fst (m_types m) ++ imported_types m
  | Some l => filter upper l
  end.
Definition ExportedVars (m : amodule) : list name :=
  match m_exports m with
  | None => map fst (m_vals m)
  | Some l => filter (fun n => negb (upper n)) l
  end.
(** GetModuleByName, Asn1Ast.fs:229-234, and the search of checkImport *)
Definition find_module (ast : list amodule) (n : name) : option amodule :=
  find (fun m => String.eqb (m_name m) n) ast.

(** GetTypeAssignmentByName, Asn1Ast.fs:263-273: the module where the type is defined and
    the type. [Endless]: the recursion has not ended after [fuel] calls. *)
Inductive lookup := Found (m : name) (t : stype (name * name)) | NotDefined | UnknownModule (m : name) | Endless.
Fixpoint GetTypeAssignmentByName (fuel : nat) (ast : list amodule) (m : amodule) (n : name) : lookup :=
  match fuel with
  | O => Endless
  | S fuel =>
      match find (fun p => String.eqb (fst p) n) (m_types m) with
      | Some p => Found (m_name m) (snd p)
      | None =>
          match find (fun c => mem n (c_types c)) (m_imports m) with
          | Some c =>
              match find_module ast (c_mod c) with
              | Some m' => GetTypeAssignmentByName fuel ast m' n
              | None => UnknownModule (c_mod c)
              end
          | None => NotDefined
          end
      end
  end.

(** CheckForDuplicates, FsUtils.fs:768-776, and CheckForDuplicatesCI, 793-804;
    [ada]: checkForAdaKeywords, whether Ada is a target. *)
Definition count (n : name) (l : list name) : nat := List.length (filter (String.eqb n) l).
Definition CheckForDuplicates (l : list name) : option err :=
  match find (fun n => Nat.ltb 1 (count n l)) l with
  | Some n => Some (Duplicate n)
  | None => None
  end.
Definition CheckForDuplicatesCI (ada : bool) (l : list name) : option err :=
  if negb ada then None else
  match find (fun n => Nat.ltb 1 (count (lower n) (map lower l))) l with
  | Some n => Some (DuplicateCI n)
  | None => None
  end.
(** CheckType, CheckAsn1.fs:497-594: the references only (589-593). *)
Definition CheckType (ast : list amodule) (t : stype (name * name)) : option err :=
  first_err (fun r =>
    match find_module ast (fst r) with
    | None => Some (NoModule (fst r))
    | Some impMod => if mem (snd r) (ExportedTypes impMod) then None else Some (NoType (fst r) (snd r))
    end) (refs t).
(** checkImport, CheckAsn1.fs:641-661 *)
Definition checkImport (ast : list amodule) (imp : clause) : option err :=
  match find_module ast (c_mod imp) with
  | None => Some (NoImported (c_mod imp))
  | Some im =>
      andthen
        (first_err (fun n =>
           if mem n (map fst (m_types im))
           then if mem n (ExportedTypes im) then None else Some (PrivateType (c_mod imp) n)
           else Some (MissingType (c_mod imp) n)) (c_types imp))
        (first_err (fun n =>
           if mem n (map fst (m_vals im))
           then if mem n (ExportedVars im) then None else Some (PrivateVal (c_mod imp) n)
           else Some (MissingVal (c_mod imp) n)) (c_vals imp))
  end.
(** CheckModule, CheckAsn1.fs:598-662; without the check of values and of names against
    the keywords of the target languages (618, 633-639). *)
Definition CheckModule (ada : bool) (ast : list amodule) (m : amodule) : option err :=
  let typeAssNames := map fst (m_types m) in
  let valAssNames := map fst (m_vals m) in
  andthen (CheckForDuplicates typeAssNames)
  (andthen (CheckForDuplicatesCI ada typeAssNames)
  (andthen (CheckForDuplicates (imported_types m))
  (andthen (CheckForDuplicates (typeAssNames ++ imported_types m))
  (andthen (CheckForDuplicates valAssNames)
  (andthen (CheckForDuplicatesCI ada valAssNames)
  (andthen (CheckForDuplicates (imported_vals m))
  (andthen (CheckForDuplicates (valAssNames ++ imported_vals m))
  (andthen (first_err (fun p => CheckType ast (snd p)) (m_types m))
  (andthen (first_err (fun p => CheckType ast (snd p)) (m_vals m))
  (first_err (checkImport ast) (m_imports m))))))))))).
(** checkForCyclicModules, CheckAsn1.fs:665-682 *)
Definition checkForCyclicModules (ast : list amodule) : option err :=
  match sort_nodes String.eqb [] (map (fun m => (m_name m, map c_mod (m_imports m))) ast) with
  | Some (inl _) => None
  | Some (inr _) => Some CyclicModules
  | None => Some NoFuel
  end.
(** CheckFiles, CheckAsn1.fs:684-690 *)
Definition CheckFiles (ada : bool) (ast : list amodule) : option err :=
  andthen (checkForCyclicModules ast)
  (andthen (CheckForDuplicates (map m_name ast))
  (first_err (CheckModule ada ast) ast)).

(** CreateAstRoot, CreateAsn1AstFromAntlrTree.fs:1013-1030, and CheckFiles as called by
    FrontEntMain.fs:91-92; parameterized types, which are expanded in between, are left out. *)
Definition front_end (ada : bool) (ms : list (smodule rname)) : err + list amodule :=
  match andthen (orphans ms) (cyclic_types ms) with
  | Some e => inl e
  | None =>
      let ast := map (CreateAsn1Module ms) ms in
      match CheckFiles ada ast with
      | Some e => inl e
      | None => inr ast
      end
  end.
