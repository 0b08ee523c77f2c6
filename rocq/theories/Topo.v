(** Ordering of definitions: CommonTypes/FsUtils.fs and BackendAst/DAstProgramUnit.fs. *)
From Verif Require Import Base.

Section Sort.
Context {A : Type} (comparer : A -> A -> bool).

Definition isEmpty {B} (l : list B) : bool := match l with [] => true | _ => false end.
(** DoTopologicalSort3_aux, FsUtils.fs:667-679 and 695-708 (the same code). [fuel]
    bounds the recursion; None: not enough of it. *)
Fixpoint DoTopologicalSort3_aux (fuel : nat) (independentNodes : list A) (dependentNodes : list (A * list A)) (rt : list A)
  : option (list A * list (A * list A)) :=
  match independentNodes with
  | [] => Some (rev rt, dependentNodes)
  | head :: tail =>
      match fuel with
      | O => None
      | S fuel =>
          let dependentNodes2 :=
            map (fun p => (fst p, filter (fun x => negb (comparer x head)) (snd p))) dependentNodes in
          let newDependentNodes := filter (fun p => negb (isEmpty (snd p))) dependentNodes2 in
          let independentNodes2 := map fst (filter (fun p => isEmpty (snd p)) dependentNodes2) in
          let newIndependentNodes := independentNodes2 ++ tail in
          let newRet := head :: rt in
          DoTopologicalSort3_aux fuel newIndependentNodes newDependentNodes newRet
      end
  end.
(** DoTopologicalSort2_noexc, FsUtils.fs:663-683, and DoTopologicalSort2, 690-712: the
    right hand side holds the unsorted nodes, an Error or the argument of excToThrow. *)
Definition DoTopologicalSort2 (independentNodes : list A) (dependentNodes : list (A * list A))
  : option (list A + list (A * list A)) :=
  match DoTopologicalSort3_aux (length independentNodes + length dependentNodes) independentNodes dependentNodes [] with
  | Some (sorted, []) => Some (inl sorted)
  | Some (_, unsorted) => Some (inr unsorted)
  | None => None
  end.
(** The callers split the nodes: DAstProgramUnit.fs:88-91, DAstConstruction.fs:973-976,
    PrintAsn1.fs:200-203, CheckAsn1.fs:667-670, CreateAsn1AstFromAntlrTree.fs:996-1000,
    AcnGenericCreateFromAntlr.fs:502-505. *)
Definition sort_nodes (imports : list A) (allNodes : list (A * list A)) : option (list A + list (A * list A)) :=
  let independentNodes := map fst (filter (fun p => isEmpty (snd p)) allNodes) in
  let dependentNodes := filter (fun p => negb (isEmpty (snd p))) allNodes in
  DoTopologicalSort2 (imports ++ independentNodes) dependentNodes.
End Sort.

(** A type as seen by getTypeDependencies2, DAstProgramUnit.fs:62-78: its ACN
    parameters of reference type, and its kind. [DOther]: types without components;
    ACN inserted fields are not counted as components. *)
Inductive dtype (A : Type) :=
| DOther (prms : list A)
| DSeqOf (prms : list A) (t : dtype A)
| DSeq (prms : list A) (ts : list (dtype A))   (* SEQUENCE, CHOICE *)
| DRef (prms : list A) (r : A).
Arguments DOther {A}. Arguments DSeqOf {A}. Arguments DSeq {A}. Arguments DRef {A}.
Fixpoint getTypeDependencies2 {A} (t : dtype A) : list A :=
  match t with
  | DOther prms => prms
  | DSeqOf prms t => prms ++ getTypeDependencies2 t
  | DSeq prms ts => prms ++ flat_map getTypeDependencies2 ts
  | DRef prms r => r :: prms
  end.
(** sortTypes, DAstProgramUnit.fs:80-100 *)
Definition sortTypes {A} (comparer : A -> A -> bool) (imports : list A) (tas : list (A * dtype A))
  : option (list A + list (A * list A)) :=
  sort_nodes comparer imports (map (fun p => (fst p, getTypeDependencies2 (snd p))) tas).
(** The types of a program unit, createProgramUnits, DAstProgramUnit.fs:136-142 (C: the
    names found in the file) and 176 (the names of the module). *)
Definition file_order {A} (comparer : A -> A -> bool) (imports : list A) (tas : list (A * dtype A))
  : option (list A + list (A * list A)) :=
  match sortTypes comparer imports tas with
  | Some (inl sorted) => Some (inl (filter (fun n => existsb (fun y => comparer n y) (map fst tas)) sorted))
  | x => x
  end.
