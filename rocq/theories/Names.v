(** C names of enumerated items and of choice alternatives: EnsureUniqueEnumNames.fs. *)
From Coq Require Import String Ascii List Bool Arith.
Import ListNotations.
Local Open Scope string_scope.
Local Open Scope list_scope.

(** ToC, FsUtils.fs:119-121 *)
Definition toc_char (c : ascii) : string :=
  if existsb (fun d => (c =? d)%char) ["-"; "."; "("; ")"]%char then "_"
  else if (c =? "#")%char then "elm" else String c "".
Fixpoint ToC (s : string) : string := match s with "" => "" | String c s => (toc_char c ++ ToC s)%string end.
(** s.Contains x, ordinal *)
Fixpoint contains (x s : string) : bool :=
  prefix x s || match s with "" => false | String _ s => contains x s end.
(** s.Replace(x, "") for x not empty: the occurrences from left to right; [skip] characters of an
    occurrence remain to be left out. *)
Fixpoint delete (x : string) (skip : nat) (s : string) : string :=
  match s with
  | "" => ""
  | String c s' =>
      match skip with
      | S k => delete x k s'
      | O => if prefix x s then delete x (String.length x - 1)%nat s' else String c (delete x 0 s')
      end
  end.
(** icompare, FsUtils.fs:200-201; on ASCII, where the culture does not matter. *)
Definition lower (c : ascii) : ascii :=
  let n := nat_of_ascii c in if (65 <=? n)%nat && (n <=? 90)%nat then ascii_of_nat (n + 32)%nat else c.
Fixpoint lowers (s : string) : string := match s with "" => "" | String c s => String (lower c) (lowers s) end.
Definition icompare (a b : string) : bool := String.eqb (lowers a) (lowers b).

(** keepDuplicates_private, FsUtils.fs:483-490; [fuel]: the length of the list. *)
Fixpoint keepDup (f : string -> string -> bool) (fuel : nat) (l : list string) : list string :=
  match fuel, l with
  | S n, x :: xs =>
      match filter (f x) xs with
      | [] => keepDup f n xs
      | _ => x :: keepDup f n (filter (fun y => negb (String.eqb y x)) xs)
      end
  | _, _ => []
  end.
Definition keepDuplicates f l := keepDup f (List.length l) l.

(** Types as far as names matter: items with ASN.1 name and c_name; alternatives with ASN.1 name,
    present_when_name and type. SET and SEQUENCE alike. References are not entered
    (GetMySelfAndChildren, Asn1Ast.fs:377-386; CloneType, CloneTree.fs:76-104). *)
Inductive nty :=
| NEnum (items : list (string * string))
| NSeq (l : list (string * nty))
| NChoice (l : list (string * string * nty))
| NOf (t : nty)
| NOther.
(** A module: name, type assignments, names of the value assignments. *)
Record nmod := mkmod { mname : string; mtypes : list (string * nty); mvalues : list string }.
Definition nroot := list nmod.
(** EnumRenamePolicy, CommonTypes.fs:392-397, the two policies that rename here. *)
Inductive policy := SelectiveEnumerants | AllEnumerants.

(** foldMap of a function that does not change the state and may raise. *)
Definition omap {A B} (f : A -> option B) : list A -> option (list B) :=
  fix go l := match l with
              | [] => Some []
              | x :: l => match f x, go l with Some y, Some l' => Some (y :: l') | _, _ => None end
              end.
(** key |> List.rev |> List.map ToC |> Seq.skipWhile Contains |> Seq.head *)
Definition newPrefix (key : list string) (name : string) : option string :=
  find (fun x => negb (contains x name)) (map ToC (rev key)).
(** List.maxBy Length: the first of the longest; of no items an exception. *)
Definition longest (l : list string) : option string :=
  match l with
  | [] => None
  | x :: l => Some (fold_left (fun m y => if (String.length m <? String.length y)%nat then y else m) l x)
  end.
(** copyItem, EnsureUniqueEnumNames.fs:229-236, and the name in CloneChild, 41-52 *)
Definition new_name (f : string -> string -> bool) (dup key : list string) (name : string) : option string :=
  if existsb (f name) dup then option_map (fun p => (p ++ "_" ++ name)%string) (newPrefix key name) else Some name.
Definition copyItem (dup key : list string) (it : string * string) : option (string * string) :=
  option_map (fun n => (fst it, n)) (new_name String.eqb dup key (snd it)).
(** CloneType of handleEnums, EnsureUniqueEnumNames.fs:225-250 *)
Fixpoint enum_type (pol : policy) (dup key : list string) (t : nty) : option nty :=
  match t with
  | NEnum items =>
      match omap (copyItem dup key) items with
      | None => None
      | Some copied =>
          match pol with
          | SelectiveEnumerants => Some (NEnum copied)
          | AllEnumerants =>
              match longest (map (fun it => delete (ToC (fst it)) 0 (snd it)) copied) with
              | None => None
              | Some p => Some (NEnum (map (fun it => (fst it, (p ++ snd it)%string)) items))
              end
          end
      end
  | NSeq l => option_map NSeq (omap (fun c => option_map (fun t => (fst c, t)) (enum_type pol dup (key ++ [fst c]) (snd c))) l)
  | NChoice l => option_map NChoice (omap (fun c => option_map (fun t => (fst c, t)) (enum_type pol dup (key ++ [fst (fst c)]) (snd c))) l)
  | NOf t => option_map NOf (enum_type pol dup (key ++ ["#"]) t)
  | NOther => Some NOther
  end.
(** CloneType of handleEnumChoices, 38-71. With AllEnumerants the alternatives are those of the old
    list, line 67. *)
Fixpoint choice_type (pol : policy) (dup key : list string) (t : nty) : option nty :=
  match t with
  | NChoice l =>
      match omap (fun c => let '(n, p, ty) := c in
                    match choice_type pol dup (key ++ [n]) ty, new_name icompare dup key p with
                    | Some ty', Some p' => Some (n, ToC p', ty')
                    | _, _ => None
                    end) l with
      | None => None
      | Some l' =>
          match pol with
          | SelectiveEnumerants => Some (NChoice l')
          | AllEnumerants =>
              match longest (map (fun c => delete (ToC (fst (fst c))) 0 (snd (fst c))) l') with
              | None => None
              | Some p => Some (NChoice (map (fun c => (fst (fst c), (p ++ snd (fst c))%string, snd c)) l))
              end
          end
      end
  | NSeq l => option_map NSeq (omap (fun c => option_map (fun t => (fst c, t)) (choice_type pol dup (key ++ [fst c]) (snd c))) l)
  | NOf t => option_map NOf (choice_type pol dup (key ++ ["#"]) t)
  | NEnum items => Some (NEnum items)
  | NOther => Some NOther
  end.
(** CloneTree with CloneTypeAssignment, CloneTree.fs:37-66; files are flattened and types of values,
    which no later step names, left out. *)
Definition clone (f : list string -> nty -> option nty) (r : nroot) : option nroot :=
  omap (fun m => option_map (fun ts => mkmod (mname m) ts (mvalues m))
    (omap (fun a => option_map (fun t => (fst a, t)) (f [mname m; fst a] (snd a))) (mtypes m))) r.

(** The names looked at, 25-33 and 206-217 *)
Fixpoint enum_names (t : nty) : list string :=
  match t with
  | NEnum items => map snd items
  | NSeq l => flat_map (fun c => enum_names (snd c)) l
  | NChoice l => flat_map (fun c => enum_names (snd c)) l
  | NOf t => enum_names t
  | NOther => []
  end.
Fixpoint choice_names (t : nty) : list string :=
  match t with
  | NChoice l => map (fun c => snd (fst c)) l ++ flat_map (fun c => choice_names (snd c)) l
  | NSeq l => flat_map (fun c => choice_names (snd c)) l
  | NOf t => choice_names t
  | _ => []
  end.
Definition names_of (f : nty -> list string) (r : nroot) : list string :=
  flat_map (fun m => flat_map (fun a => f (snd a)) (mtypes m)) r.
Definition doubleEnumNames0 (r : nroot) : list string :=
  flat_map (fun m => flat_map (fun a => enum_names (snd a)) (mtypes m) ++ mvalues m) r.
(** c_keywords, CommonTypes.fs:12 *)
Definition c_keywords : list string :=
  ["auto"; "break"; "case"; "char"; "const"; "continue"; "default"; "do"; "double"; "else"; "enum"; "extern"; "float"; "for";
   "goto"; "if"; "int"; "long"; "register"; "return"; "short"; "signed"; "sizeof"; "static"; "struct"; "switch"; "typedef";
   "union"; "unsigned"; "void"; "volatile"; "while"].
(** One call of handleEnums (204-253) or handleEnumChoices (24-75): it returns, calls itself, or raises. *)
Inductive call := Return (r : nroot) | Again (r : nroot) | Raise.
Definition call_of (dup : list string) (c : list string -> nroot -> option nroot) (r : nroot) : call :=
  match dup with
  | [] => Return r
  | _ => match c dup r with Some r' => Again r' | None => Raise end
  end.
Definition handleEnums (pol : policy) (r : nroot) : call :=
  call_of (keepDuplicates String.eqb (doubleEnumNames0 r ++ c_keywords)) (fun dup => clone (enum_type pol dup)) r.
Definition handleEnumChoices (pol : policy) (r : nroot) : call :=
  call_of (keepDuplicates icompare (names_of choice_names r)) (fun dup => clone (choice_type pol dup)) r.
(** At most n calls; None: not finished. *)
Inductive result := Done (r : nroot) | Error.
Fixpoint run (f : nroot -> call) (n : nat) (r : nroot) : option result :=
  match n with
  | O => None
  | S n => match f r with Return r => Some (Done r) | Again r => run f n r | Raise => Some Error end
  end.
(** DoWork, 256-266, for C and without field prefix: the choices, then the items. *)
Definition DoWork (pol : policy) (n : nat) (r : nroot) : option result :=
  match run (handleEnumChoices pol) n r with
  | Some (Done r) => run (handleEnums pol) n r
  | x => x
  end.
(** The enumerators written to the header: getNamedItemBackendName, LangGeneric_c.fs:143-144, and
    presentWhenName, 229-232; the constants of value assignments, CreateAsn1AstFromAntlrTree.fs:817. *)
Definition enumerators (r : nroot) : list string := map ToC (names_of enum_names r).
Definition presents (r : nroot) : list string := map (fun p => (ToC p ++ "_PRESENT")%string) (names_of choice_names r).
Definition constants (r : nroot) : list string := map ToC (flat_map mvalues r).
(** The tree as MapParamAstToNonParamAst.fs:255-271 makes it: all names are ToC of the ASN.1 name. *)
Fixpoint initial (t : nty) : nty :=
  match t with
  | NEnum items => NEnum (map (fun it => (fst it, ToC (fst it))) items)
  | NSeq l => NSeq (map (fun c => (fst c, initial (snd c))) l)
  | NChoice l => NChoice (map (fun c => (fst (fst c), ToC (fst (fst c)), initial (snd c))) l)
  | NOf t => NOf (initial t)
  | NOther => NOther
  end.
Definition initial_root (r : nroot) : nroot :=
  map (fun m => mkmod (mname m) (map (fun a => (fst a, initial (snd a))) (mtypes m)) (mvalues m)) r.
