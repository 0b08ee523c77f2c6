(** C names of the components of SEQUENCE, SET and CHOICE types: their check, CheckAsn1.fs:497-531,
    and their prefixes, EnsureUniqueEnumNames.fs:78-202. Names are ASCII strings without locations. *)
From Verif Require Import Names.
From Coq Require Import String Ascii List Bool Arith.
Import ListNotations.
Local Open Scope string_scope.
Local Open Scope list_scope.

(** ChildInfo, Asn1Ast.fs:162-172: the ASN.1 name, c_name and type of a component. References are not
    entered (GetMySelfAndChildren, Asn1Ast.fs:377-386; CloneType, CloneTree.fs:76-104). *)
Inductive fty :=
| FSeq (l : list (string * string * fty))
| FChoice (l : list (string * string * fty))
| FOf (t : fty)
| FOther.
(** A module: name and type assignments. *)
Record fmod := FMod { f_name : string; f_types : list (string * fty) }.
Definition froot := list fmod.
(** FieldPrefix, CommonTypes.fs:413-415; Program.fs:368-374 *)
Inductive prefix_policy := PrefixAuto | PrefixUser (p : string).
(** The arguments used: [a_field]: --field-prefix, [a_type]: -typePrefix, [a_keyw]: checkForAdaKeywords,
    FsUtils.fs:361-364, true unless an environment variable switches it off. *)
Record fargs := FArgs { a_field : option prefix_policy; a_type : string; a_keyw : bool }.

(** What SemanticError is raised for. *)
Inductive ferr := DupField (n : string) | DupFieldCI (n : string) | Keyword (n : string)
| AlsoModule (n m : string) | AlsoType (n t : string).
Definition thenf (a b : option ferr) : option ferr := match a with None => b | e => e end.
(** Seq.iter of a function that may raise. *)
Definition iterf {A} (f : A -> option ferr) : list A -> option ferr :=
  fix go l := match l with [] => None | x :: l => thenf (f x) (go l) end.

(** ada_keywords, CommonTypes.fs:14 *)
Definition ada_keywords : list string :=
  ["abort"; "else"; "new"; "return"; "abs"; "elsif"; "not"; "reverse"; "abstract"; "end"; "null"; "accept"; "entry"; "select";
   "access"; "exception"; "of"; "separate"; "aliased"; "exit"; "or"; "some"; "all"; "others"; "subtype"; "and"; "for"; "out";
   "synchronized"; "array"; "function"; "overriding"; "at"; "tagged"; "generic"; "package"; "task"; "begin"; "goto"; "pragma";
   "terminate"; "body"; "private"; "then"; "if"; "procedure"; "type"; "case"; "in"; "protected"; "constant"; "interface"; "until";
   "is"; "raise"; "use"; "declare"; "range"; "delay"; "limited"; "record"; "when"; "delta"; "loop"; "rem"; "while"; "digits";
   "renames"; "with"; "do"; "mod"; "requeue"; "xor"].
Definition mems (n : string) (l : list string) : bool := existsb (String.eqb n) l.
(** checkAgainstKeywords, CheckAsn1.fs:34-41; all_keywords, 23-30, are those of C and of Ada. *)
Definition checkAgainstKeywords (keyw : bool) (n : string) : option ferr :=
  if mems (lowers n) (c_keywords ++ ada_keywords) then if keyw then Some (Keyword n) else None else None.
(** CheckForDuplicates, FsUtils.fs:768-776, and CheckForDuplicatesCaseCaseInsensitive, 750-766 *)
Definition times (n : string) (l : list string) : nat := List.length (filter (String.eqb n) l).
Definition dup_fields (l : list string) : option ferr :=
  match find (fun n => 1 <? times n l)%nat l with Some n => Some (DupField n) | None => None end.
Definition dup_fields_ci (l : list string) : option ferr :=
  match find (fun n => 1 <? times (lowers n) (map lowers l))%nat l with Some n => Some (DupFieldCI n) | None => None end.
(** CheckAsn1.fs:509-527, for one name *)
Definition check_clash (a : fargs) (r : froot) (m : fmod) (c : string) : option ferr :=
  match find (fun m => String.eqb (lowers (f_name m)) (ToC (lowers c))) r with
  | Some m => match a_field a with None => Some (AlsoModule c (f_name m)) | Some _ => None end
  | None =>
      match find (fun t => String.eqb (ToC (lowers (a_type a ++ fst t))) (ToC (lowers c))) (f_types m) with
      | Some t => if a_keyw a then match a_field a with None => Some (AlsoType c (fst t)) | Some _ => None end else None
      | None => None
      end
  end.
Definition fnames (l : list (string * string * fty)) : list string := map (fun c => fst (fst c)) l.
(** CheckSeqChoiceChildren and CheckType, CheckAsn1.fs:497-567; names only, without default values,
    enumerated items and constraints. *)
Fixpoint CheckFields (a : fargs) (r : froot) (m : fmod) (t : fty) : option ferr :=
  let names bChoice l :=
    thenf (if bChoice : bool then dup_fields_ci (fnames l) else dup_fields (fnames l))
      (thenf (match a_field a with None => iterf (checkAgainstKeywords (a_keyw a)) (fnames l) | Some _ => None end)
         (iterf (check_clash a r m) (fnames l))) in
  match t with
  | FSeq l => thenf (names false l) (iterf (fun c => CheckFields a r m (snd c)) l)
  | FChoice l => thenf (names true l) (iterf (fun c => CheckFields a r m (snd c)) l)
  | FOf t => CheckFields a r m t
  | FOther => None
  end.
(** The types of all modules, CheckModule, CheckAsn1.fs:598-662; without the types of values. *)
Definition CheckAllFields (a : fargs) (r : froot) : option ferr :=
  iterf (fun m => iterf (fun t => CheckFields a r m (snd t)) (f_types m)) r.

(** handleSequencesAndChoices for C. cmp is equality (isCaseSensitive, LangGeneric_c.fs:45), and names of
    types and modules do not matter (hasModules, 208): the names of 100-133 are the keywords (203) in use. *)
Fixpoint field_names (t : fty) : list string :=
  match t with
  | FSeq l | FChoice l => map (fun c => snd (fst c)) l ++ flat_map (fun c => field_names (snd c)) l
  | FOf t => field_names t
  | FOther => []
  end.
Definition invalidComponentNames (r : froot) : list string :=
  filter (fun n => mems n c_keywords) (flat_map (fun m => flat_map (fun t => field_names (snd t)) (f_types m)) r).
(** CloneType, EnsureUniqueEnumNames.fs:139-174; None: Seq.head of nothing. new_name (Names.v) is the
    same search for a prefix. *)
Fixpoint auto_type (bad key : list string) (t : fty) : option fty :=
  let child c := let '(n, p, ty) := c in
    match auto_type bad (key ++ [n]) ty, new_name String.eqb bad key p with
    | Some ty', Some p' => Some (n, p', ty')
    | _, _ => None
    end in
  match t with
  | FSeq l => option_map FSeq (omap child l)
  | FChoice l => option_map FChoice (omap child l)
  | FOf t => option_map FOf (auto_type bad (key ++ ["#"]) t)
  | FOther => Some FOther
  end.
(** CloneTree, CloneTree.fs:37-66 *)
Definition clonef (f : list string -> fty -> option fty) (r : froot) : option froot :=
  omap (fun m => option_map (FMod (f_name m))
    (omap (fun t => option_map (fun ty => (fst t, ty)) (f [f_name m; fst t] (snd t))) (f_types m))) r.
(** FieldPrefixUserValue, 176-200: the types of the components are left as they are. *)
Fixpoint user_type (p : string) (t : fty) : fty :=
  let child c := (fst (fst c), (p ++ snd (fst c))%string, snd c) in
  match t with
  | FSeq l => FSeq (map child l)
  | FChoice l => FChoice (map child l)
  | FOf t => FOf (user_type p t)
  | FOther => FOther
  end.
(** At most n calls, 93-202; None: not finished. *)
Inductive fresult := FDone (r : froot) | FRaise.
Fixpoint auto (n : nat) (r : froot) : option fresult :=
  match n with
  | O => None
  | S n =>
      match invalidComponentNames r with
      | [] => Some (FDone r)
      | bad => match clonef (auto_type bad) r with Some r' => auto n r' | None => Some FRaise end
      end
  end.
(** DoWork, 267-274, for C *)
Definition FieldWork (a : fargs) (n : nat) (r : froot) : option fresult :=
  match a_field a with
  | None => Some (FDone r)
  | Some PrefixAuto => auto n r
  | Some (PrefixUser p) => match clonef (fun _ t => Some (user_type p t)) r with Some r' => Some (FDone r') | None => Some FRaise end
  end.
(** c_name of the parser's tree: MapParamAstToNonParamAst.fs:252-258 *)
Fixpoint initial_fields (t : fty) : fty :=
  let child c := (fst (fst c), ToC (fst (fst c)), initial_fields (snd c)) in
  match t with
  | FSeq l => FSeq (map child l)
  | FChoice l => FChoice (map child l)
  | FOf t => FOf (initial_fields t)
  | FOther => FOther
  end.
Definition start (r : froot) : froot := map (fun m => FMod (f_name m) (map (fun t => (fst t, initial_fields (snd t))) (f_types m))) r.
