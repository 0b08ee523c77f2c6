(** Which constraints a type may have (isConstraintValid and AreTypesCompatible, CheckAsn1.fs). *)
From Coq Require Import List String Bool Arith.
Import ListNotations.
Local Open Scope list_scope.

Inductive mark := NoMark | MarkPresent | MarkAbsent | MarkOptional.
(** Asn1Constraint and NamedConstraint, Asn1Ast.fs:58-81; [V]: values. Texts and locations are
    left out, and the flags for open ends of ranges. *)
Inductive acon (V : Type) :=
| ASingle (v : V) | ARange (v w : V) | AFrom (v : V) | ATo (v : V) | AAny
| AIncl (m T : string)
| ASize (c : acon V) | AAlpha (c : acon V)
| AUnion (c d : acon V) | AInter (c d : acon V) | AAllExcept (c : acon V) | AExcept (c d : acon V)
| ARoot (c : acon V) | ARoot2 (c d : acon V)
| AWith (c : acon V)
| AWiths (l : list (string * mark * option (acon V))).
Arguments ASingle {V}. Arguments ARange {V}. Arguments AFrom {V}. Arguments ATo {V}. Arguments AAny {V}.
Arguments AIncl {V}. Arguments ASize {V}. Arguments AAlpha {V}. Arguments AUnion {V}. Arguments AInter {V}.
Arguments AAllExcept {V}. Arguments AExcept {V}. Arguments ARoot {V}. Arguments ARoot2 {V}. Arguments AWith {V}. Arguments AWiths {V}.

(** Asn1Optionality option, Asn1Ast.fs:114-117. [Mandatory]: None. *)
Inductive opt := Mandatory | AlwaysAbsent | AlwaysPresent | Optional (default : bool).
(** Asn1Type, Asn1Ast.fs:123-148: its place in the source and its kind. Named bits are left out,
    of the items of an ENUMERATED type only the names are kept. *)
Inductive atype := AT (loc : nat) (k : akind)
with akind :=
| KInt | KReal | KIA5 | KNum | KOct | KNull | KTime (class : nat) | KBits | KBool | KOid | KRoid
| KEnum (items : list string)
| KOf (t : atype)
| KSeq (l : list (string * opt * atype))
| KCh (l : list (string * opt * atype))
| KRef (m T : string).

(** SemanticErrors, by their message; [Deep]: a recursion that did not end within the fuel. *)
Inductive cerr :=
| NoRange | NoSize | NoAlpha | NoWith | NoWiths | BadValue | Incompatible | UnknownType
| Twice (n : string) | BadId (n : string) | HasDefault (n : string) | NotOptional (n : string) | ChoiceMark (n : string) | Deep.
Definition chk A := (A + cerr)%type.
Definition bnd {A B} (a : chk A) (f : A -> chk B) : chk B := match a with inl x => f x | inr e => inr e end.
Definition iter {A} (f : A -> chk unit) : list A -> chk unit :=
  fix go l := match l with [] => inl tt | x :: l => bnd (f x) (fun _ => go l) end.
Fixpoint forall_chk {A} (f : A -> chk bool) (l : list A) : chk bool :=
  match l with [] => inl true | x :: l => bnd (f x) (fun b => if b then forall_chk f l else inl false) end.
Definition comp := (string * opt * atype)%type.
Definition c_type (c : comp) : atype := snd c.
Definition loc_of (t : atype) : nat := match t with AT l _ => l end.
Definition kind_of (t : atype) : akind := match t with AT _ k => k end.

Section check.
Variable V : Type.
(** CheckValueType, modelled in Check.v: whether a value is one of the type. *)
Variable value_ok : atype -> V -> bool.
(** The types of all modules. *)
Variable tyof : string -> string -> option atype.

(** GetActualType, Asn1Ast.fs:287-293 *)
Fixpoint GetActualType (fuel : nat) (t : atype) : chk atype :=
  match fuel with
  | O => inr Deep
  | S f =>
      match kind_of t with
      | KRef m T => match tyof m T with Some t' => GetActualType f t' | None => inr UnknownType end
      | _ => inl t
      end
  end.
(** GetActualTypeByName, Asn1Ast.fs:319-322 *)
Definition GetActualTypeByName (fuel : nat) (m T : string) : chk atype :=
  match tyof m T with Some t => GetActualType fuel t | None => inr UnknownType end.

(** Equality of two ChildInfo records: as the types carry their places in the source, the components are
    those of one definition; everything else is then equal too (components copied by
    COMPONENTS OF or by a parameterized type are left out). *)
Definition same_comp (a b : comp) : bool := String.eqb (fst (fst a)) (fst (fst b)) && (loc_of (c_type a) =? loc_of (c_type b)).
Fixpoint same_comps (l m : list comp) : bool :=
  match l, m with
  | [], [] => true
  | a :: l, b :: m => same_comp a b && same_comps l m
  | _, _ => false
  end.
(** Kind.ToString() of the kinds without components *)
Definition same_kind (k l : akind) : bool :=
  match k, l with
  | KInt, KInt | KReal, KReal | KIA5, KIA5 | KNum, KNum | KOct, KOct | KNull, KNull | KBits, KBits | KBool, KBool
  | KOid, KOid | KRoid, KRoid => true
  | KTime c, KTime d => c =? d
  | _, _ => false
  end.
(** AreTypesCompatible, CheckAsn1.fs:379-396 *)
Fixpoint AreTypesCompatible (fuel : nat) (t1 t2 : atype) : chk bool :=
  match fuel with
  | O => inr Deep
  | S f =>
      match kind_of t1, kind_of t2 with
      | KRef _ _, _ => bnd (GetActualType fuel t1) (fun t => AreTypesCompatible f t t2)
      | _, KRef _ _ => bnd (GetActualType fuel t2) (fun t => AreTypesCompatible f t1 t)
      | KSeq c1, KSeq c2 | KCh c1, KCh c2 =>
          let sameSize := List.length c1 =? List.length c2 in
          let sameNames := same_comps c1 c2 in
          let zipped := combine (map c_type c1) (map c_type c2) in
          if sameSize && sameNames then forall_chk (fun p => AreTypesCompatible f (fst p) (snd p)) zipped else inl false
      | KOf child1, KOf child2 => AreTypesCompatible f child1 child2
      | KEnum items1, KEnum items2 =>
          let sameSize := List.length items1 =? List.length items2 in
          let names1 := items1 in
          let names2 := items1 in
          inl (sameSize && (if list_eq_dec string_dec names1 names2 then true else false))
      | k1, k2 => inl (same_kind k1 k2)
      end
  end.

(** CanHaveRangeConstraint, CanHaveSizeConstraint, CanHaveFromConstraint, CheckAsn1.fs:401-420: on the kind
    of the actual type. *)
Definition on_kind {A} (fuel : nat) (t : atype) (f : akind -> A) : chk A :=
  bnd (GetActualType fuel t) (fun t => inl (f (kind_of t))).
Definition CanHaveRange (k : akind) : bool := match k with KInt | KReal | KIA5 | KNum => true | _ => false end.
Definition CanHaveSize (k : akind) : bool := match k with KIA5 | KNum | KOct | KBits | KOf _ => true | _ => false end.
Definition CanHaveFrom (k : akind) : bool := match k with KIA5 | KNum => true | _ => false end.
(** CanHaveWithComponentConstraint, CanHaveWithComponentsConstraint, CheckAsn1.fs:421-434 *)
Definition CanHaveWith (k : akind) : option atype := match k with KOf t => Some t | _ => None end.
Definition CanHaveWiths (k : akind) : option (list comp) := match k with KSeq l | KCh l => Some l | _ => None end.
Definition isChoice (k : akind) : bool := match k with KCh _ => true | _ => false end.

Definition need (b : bool) (e : cerr) : chk unit := if b then inl tt else inr e.
Definition CheckValueType (t : atype) (v : V) : chk unit := need (value_ok t v) BadValue.
(** CheckForDuplicates, FsUtils.fs:768-776 *)
Definition CheckForDuplicates (l : list string) : chk unit :=
  match find (fun n => 1 <? List.length (filter (String.eqb n) l)) l with
  | Some n => inr (Twice n)
  | None => inl tt
  end.
(** CheckAsn1.fs:485-491 *)
Definition check_mark (n : string) (o : opt) (m : mark) (choice : bool) : chk unit :=
  match o, m, choice with
  | Optional true, MarkAbsent, false => inr (HasDefault n)
  | Mandatory, MarkAbsent, false | Mandatory, MarkPresent, false => inr (NotOptional n)
  | _, MarkPresent, true => inl tt
  | _, MarkOptional, true => inr (ChoiceMark n)
  | _, _, _ => inl tt
  end.

(** isConstraintValid, CheckAsn1.fs:400-492. The place of a type that is made for the check is that
    of the type itself. *)
Fixpoint isConstraintAllowed (fuel : nat) (t : atype) (c : acon V) {struct c} : chk unit :=
  let can f e := bnd (on_kind fuel t f) (fun b => need b e) in
  match c with
  | ASingle v => CheckValueType t v
  | ARange v w => bnd (can CanHaveRange NoRange) (fun _ => bnd (CheckValueType t v) (fun _ => CheckValueType t w))
  | AFrom v | ATo v => bnd (can CanHaveRange NoRange) (fun _ => CheckValueType t v)
  | AAny => can CanHaveRange NoRange
  | ASize c1 => bnd (can CanHaveSize NoSize) (fun _ => isConstraintAllowed fuel (AT (loc_of t) KInt) c1)
  | AAlpha c1 => bnd (can CanHaveFrom NoAlpha) (fun _ => isConstraintAllowed fuel t c1)
  | AUnion c1 c2 | AInter c1 c2 | AExcept c1 c2 | ARoot2 c1 c2 =>
      bnd (isConstraintAllowed fuel t c1) (fun _ => isConstraintAllowed fuel t c2)
  | AAllExcept c1 | ARoot c1 => isConstraintAllowed fuel t c1
  | AIncl m T =>
      bnd (GetActualTypeByName fuel m T) (fun typeInclusion =>
      bnd (GetActualType fuel t) (fun actType =>
      bnd (AreTypesCompatible fuel typeInclusion actType) (fun b => need b Incompatible)))
  | AWith c1 =>
      bnd (on_kind fuel t CanHaveWith) (fun r =>
      match r with
      | None => inr NoWith
      | Some ch => isConstraintAllowed fuel ch c1
      end)
  | AWiths namedCons =>
      bnd (on_kind fuel t (fun k => (CanHaveWiths k, isChoice k))) (fun r =>
      match r with
      | (None, _) => inr NoWiths
      | (Some children, choice) =>
          bnd (CheckForDuplicates (map (fun nc => fst (fst nc)) namedCons)) (fun _ =>
          iter (fun nc =>
            match nc with
            | (conName, mk, newC) =>
                match find (fun c => String.eqb (fst (fst c)) conName) children with
                | None => inr (BadId conName)
                | Some child =>
                    bnd (match newC with Some c1 => isConstraintAllowed fuel (c_type child) c1 | None => inl tt end) (fun _ =>
                    check_mark conName (snd (fst child)) mk choice)
                end
            end) namedCons)
      end)
  end.
End check.
