(** How the compiler resolves named bits, COMPONENTS OF and the values of a grammar
    (MapParamAstToNonParamAst.fs). The parameterized types are gone, see Params.v. *)
From Verif Require Import Base Bits UperTypes ConSpec Constraints.
From Verif Require Export Check.
From Coq Require Import List String Ascii Bool Arith ZArith QArith.
Import ListNotations.
Local Open Scope string_scope.
Local Open Scope list_scope.

(** * Syntax, ParameterizedAsn1Ast.fs:121-222 *)
(** Asn1Value without locations; OBJECT IDENTIFIER and TIME values are left out, REAL values are
    rational numbers. [GEmpty] is { }. *)
Inductive gval :=
| GInt (z : Z) | GReal (q : Q) | GStr (s : string) | GBool (b : bool)
| GBits (l : list bool) | GOcts (l : list Z) | GNull
| GRef (m n : string)
| GOf (l : list gval)
| GSeq (l : list (string * gval))
| GCh (n : string) (v : gval)
| GEmpty.
(** IntegerOrDefinedValue, CommonTypes.fs: the number of a named bit. *)
Inductive gbit := BitNumber (z : Z) | BitValue (m n : string).
(** Asn1Optionality. *)
Inductive gopt := Gmust | Goptional | Gdefault (e : gval).
(** The constraints of a BIT STRING, or on a reference to one; single values and sizes are numbers
    and bits, references to values being resolved. *)
Definition bcon : Type := con (szatom (list bool)).
(** Asn1Type. The constraints of types other than BIT STRING are left out, as is NumericString. *)
Inductive gtype :=
| UInt | UReal | UStr | UBool | UOcts | UNull
| UBits (names : list (string * gbit)) (cs : list bcon)
| UEnum (items : list string)
| UOf (t : gtype)
| USeq (l : list gchild)
| UCh (l : list (string * gtype))
| URef (m T : string) (cs : list bcon)
with gchild := UComp (n : string) (o : gopt) (t : gtype) | UCompsOf (m T : string).

Definition find_child (n : string) (l : list (string * gopt * gtype)) : option gtype :=
  match find (fun c => String.eqb (fst (fst c)) n) l with Some (_, _, t) => Some t | None => None end.
Definition memZ (z : Z) (l : list Z) : bool := existsb (Z.eqb z) l.
(** Set.MaximumElement; None: the set is empty, an exception. *)
Definition maximum (l : list Z) : option Z :=
  match l with [] => None | x :: l => Some (fold_left Z.max l x) end.
(** The list [0I .. m]. *)
Definition upto (m : Z) : list Z := map Z.of_nat (seq 0 (Z.to_nat (m + 1))).
(** The part of a string written in braces; cr, lf, ht, nul: CommonTypes.fs, SpecialCharacter. *)
Definition special (x : string) : option string :=
  if String.eqb x "cr" then Some (String (ascii_of_nat 13) EmptyString)
  else if String.eqb x "lf" then Some (String (ascii_of_nat 10) EmptyString)
  else if String.eqb x "ht" then Some (String (ascii_of_nat 9) EmptyString)
  else if String.eqb x "nul" then Some (String (ascii_of_nat 0) EmptyString)
  else None.

Section resolve.
(** The types and the values (with their types) of all modules; imports are resolved. *)
Variable tyof : string -> string -> option gtype.
Variable valof : string -> string -> option (gtype * gval).

(** getSequenceChildren, MapParamAstToNonParamAst.fs:104-116. *)
Fixpoint seq_children (fuel : nat) (l : list gchild) : res (list (string * gopt * gtype)) :=
  match fuel with
  | O => Endless
  | S f =>
      (fix go (l : list gchild) : res (list (string * gopt * gtype)) :=
         match l with
         | [] => Done []
         | UComp n o t :: l => bind (go l) (fun r => Done ((n, o, t) :: r))
         | UCompsOf m T :: l =>
             match tyof m T with
             | Some (USeq l') => bind (seq_children f l') (fun a => bind (go l) (fun r => Done (a ++ r)))
             | _ => Raise
             end
         end) l
  end.
(** getActualKindAndModule, lines 128-136: the type behind the references, and the module named by
    the last reference. getActualKind, lines 118-123, and GetActualType, ParameterizedAsn1Ast.fs:249-269,
    give the type alone. *)
Fixpoint actual_kind (fuel : nat) (t : gtype) (md : option string) : res (gtype * option string) :=
  match fuel with
  | O => Endless
  | S f =>
      match t with
      | URef m T _ => match tyof m T with Some t' => actual_kind f t' (Some m) | None => Raise end
      | _ => Done (t, md)
      end
  end.
(** GetValueAsInt (GetBaseValue ..), ParameterizedAsn1Ast.fs:286-303. *)
Fixpoint int_value (fuel : nat) (e : gval) : res Z :=
  match fuel with
  | O => Endless
  | S f =>
      match e with
      | GInt z => Done z
      | GRef m n => match valof m n with Some (_, e') => int_value f e' | None => Raise end
      | _ => Raise
      end
  end.
(** Lines 166-176: the positions of the bits that are named. *)
Definition bit_pos (fuel : nat) (names : list (string * gbit)) (e : gval) : res Z :=
  match e with
  | GRef _ n =>
      match assoc n names with
      | None => Raise
      | Some (BitNumber z) => Done z
      | Some (BitValue m n) => int_value fuel (GRef m n)
      end
  | _ => Raise
  end.
(** Lines 162-190. The range is that of the constraints of the type behind the references; b - 1u
    is a UInt32. *)
Definition named_bits (fuel : nat) (names : list (string * gbit)) (cs : list bcon) (l : list gval) : res (list bool) :=
  match getSizeableUperRange len cs with
  | None => Raise
  | Some r =>
      bind (mapR (bit_pos fuel names) l) (fun ps =>
        match match r with Concrete _ b => Some (u32 (b - 1)) | _ => maximum ps end with
        | None => Raise
        | Some m => Done (map (fun i => memZ i ps) (upto m))
        end)
  end.
(** Lines 191-206. *)
Definition text_part (e : gval) : res string :=
  match e with
  | GStr s => Done s
  | GRef _ n => match special n with Some s => Done s | None => Raise end
  | _ => Raise
  end.

(** MapAsn1Value, lines 126-240. *)
Fixpoint map_value (fuel : nat) (t : gtype) (e : gval) : res xval :=
  match fuel with
  | O => Endless
  | S f =>
      bind (actual_kind f t None) (fun km =>
      let (k, md) := km in
      match e with
      | GInt z => Done (XInt z)
      | GReal q => Done (XReal q)
      | GStr s => Done (XStr s)
      | GBool b => Done (XBool b)
      | GBits l => Done (XBits l)
      | GOcts l => Done (XOcts l)
      | GNull => Done XNull
      | GRef m n =>
          match k, md with
          | UEnum _, Some m' => Done (XRef m' n)
          | _, _ => Done (XRef m n)
          end
      | GOf l =>
          match k with
          | UOf t' => bind (mapR (map_value f t') l) (fun r => Done (XOf r))
          | UBits names cs => bind (named_bits f names cs l) (fun r => Done (XBits r))
          | UStr => bind (mapR text_part l) (fun r => Done (XStr (String.concat "" r)))
          | _ => Raise
          end
      | GSeq l =>
          match k with
          | USeq cl =>
              bind (seq_children f cl) (fun comps =>
              bind (mapR (fun x => match find_child (fst x) comps with
                                   | Some t' => bind (map_value f t' (snd x)) (fun r => Done (fst x, r))
                                   | None => Raise
                                   end) l) (fun r => Done (XSeq r)))
          | _ => Raise
          end
      | GCh n x =>
          match k with
          | UCh alts => match assoc n alts with Some t' => bind (map_value f t' x) (fun r => Done (XCh n r)) | None => Raise end
          | _ => Raise
          end
      | GEmpty =>
          match k with
          | USeq _ => Done (XSeq [])
          | UOf _ => Done (XOf [])
          | _ => Raise
          end
      end)
  end.

(** MapAsn1Optionality, lines 245-250. *)
Definition map_opt (fuel : nat) (t : gtype) (o : gopt) : res xopt :=
  match o with
  | Gmust => Done Omust
  | Goptional => Done Ooptional
  | Gdefault e => bind (map_value fuel t e) (fun r => Done (Odefault r))
  end.
(** MapAsn1Type, lines 352-397, and MapChildInfo, lines 252-264, without the constraints. *)
Fixpoint map_type (fuel : nat) (t : gtype) : res xtype :=
  match fuel with
  | O => Endless
  | S f =>
      match t with
      | UInt => Done (XT TInt []) | UReal => Done (XT TReal []) | UStr => Done (XT TStr [])
      | UBool => Done (XT TBool []) | UOcts => Done (XT TOcts []) | UNull => Done (XT TNull [])
      | UBits _ _ => Done (XT TBits [])
      | UEnum items => Done (XT (TEnum items) [])
      | UOf t => bind (map_type f t) (fun r => Done (XT (TOf r) []))
      | USeq l =>
          bind (seq_children f l) (fun comps =>
          bind (mapR (fun c => match c with (n, o, t) =>
                       bind (map_type f t) (fun t' => bind (map_opt f t o) (fun o' => Done (n, o', t'))) end) comps)
               (fun r => Done (XT (TSeq r) [])))
      | UCh l =>
          bind (mapR (fun c => bind (map_type f (snd c)) (fun t' => Done (fst c, t'))) l) (fun r => Done (XT (TCh r) []))
      | URef m T _ => Done (XT (TRef m T) [])
      end
  end.
End resolve.
