(** ASN.1 subtype constraints and their meaning (X.680 clauses 50, 51). The
    set operations are the same in all the constraint datatypes of
    FrontEndAst/Asn1AcnAst.fs:74-171 (GenericConstraint, RangeTypeConstraint,
    SizableTypeConstraint, IA5StringConstraint, ...); here they are one datatype
    with the remaining forms as parameter. Source text and locations are left
    out. *)
From Verif Require Import Bits RealSpec UperTypes UperSpec.
From Coq Require Import Sorting.Sorted.

Inductive con (A : Type) :=
| Union (c1 c2 : con A)
| Inter (c1 c2 : con A)
| AllExcept (c : con A)
| Except (c1 c2 : con A)
| Root (c : con A)          (* c, ... *)
| Root2 (c1 c2 : con A)     (* c1, ..., c2 *)
| Atom (a : A).
Arguments Union {A}. Arguments Inter {A}. Arguments AllExcept {A}. Arguments Except {A}.
Arguments Root {A}. Arguments Root2 {A}. Arguments Atom {A}.

(** The values permitted by a constraint, given those permitted by its atoms. *)
Section Sat.
  Context {A : Type} (p : A -> bool).
  Fixpoint sat (c : con A) : bool :=
    match c with
    | Union c1 c2 | Root2 c1 c2 => sat c1 || sat c2
    | Inter c1 c2 => sat c1 && sat c2
    | AllExcept c => negb (sat c)
    | Except c1 c2 => sat c1 && negb (sat c2)
    | Root c => sat c
    | Atom a => p a
    end.
End Sat.

(** ** Value ranges *)

(** Single value; a..b, a.., ..b with the flags "bound included". *)
Inductive atom :=
| Val (v : Z)
| Rng (a b : Z) (ai bi : bool)
| Ge (a : Z) (ai : bool)
| Le (b : Z) (bi : bool).

Definition below (incl : bool) (a b : Z) : bool := if incl then a <=? b else a <? b.
Definition sat_atom (x : Z) (a : atom) : bool :=
  match a with
  | Val v => x =? v
  | Rng a b ai bi => below ai a x && below bi x b
  | Ge a ai => below ai a x
  | Le b bi => below bi x b
  end.
(** IntegerTypeConstraint, PosIntTypeConstraint *)
Definition icon := con atom.
Definition sat_int (c : icon) (x : Z) : bool := sat (sat_atom x) c.

(** ** Strings *)

(** CharTypeConstraint: a single value is a string, standing for its characters
    (X.680 51.7.2). *)
Inductive chatom :=
| Chars (s : list Z)
| ChRng (a b : Z) (ai bi : bool)
| ChGe (a : Z) (ai : bool)
| ChLe (b : Z) (bi : bool).
Definition sat_chatom (x : Z) (a : chatom) : bool :=
  match a with
  | Chars s => existsb (Z.eqb x) s
  | ChRng a b ai bi => below ai a x && below bi x b
  | ChGe a ai => below ai a x
  | ChLe b bi => below bi x b
  end.
Definition chcon := con chatom.
Definition sat_char (c : chcon) (x : Z) : bool := sat (sat_chatom x) c.

(** Equality of lists, characters being numbers. *)
Fixpoint eqs (s t : list Z) : bool :=
  match s, t with
  | [], [] => true
  | x :: s, y :: t => (x =? y) && eqs s t
  | _, _ => false
  end.

(** IA5StringConstraint *)
Inductive stratom :=
| StrVal (s : list Z)
| StrSize (c : icon)
| StrFrom (c : chcon).
Definition sat_stratom (s : list Z) (a : stratom) : bool :=
  match a with
  | StrVal t => eqs s t
  | StrSize c => sat_int c (Z.of_nat (length s))
  | StrFrom c => forallb (sat_char c) s
  end.
Definition scon := con stratom.
Definition sat_str (c : scon) (s : list Z) : bool := sat (sat_stratom s) c.

(** ** Sized types *)

(** SizableTypeConstraint; the values are of any type with a length and a
    decidable equality. *)
Inductive szatom (V : Type) :=
| SzVal (v : V)
| Size (c : icon).
Arguments SzVal {V}. Arguments Size {V}.
Definition sat_szatom {V} (eqv : V -> V -> bool) (len : V -> Z) (x : V) (a : szatom V) : bool :=
  match a with
  | SzVal v => eqv x v
  | Size c => sat_int c (len x)
  end.

(** ** Ranges *)

(** [sub r1 r2]: every value of r1 is in r2. *)
Definition sub (r1 r2 : range) : Prop := forall v, in_range r1 v -> in_range r2 v.
Definition nonempty (r : range) : Prop := exists v, in_range r v.

(** Canonical order of an alphabet (X.691 30.5.3): increasing, no repetition. *)
Definition canonical (l : list Z) : Prop := StronglySorted Z.lt l.

(** ** Constraints as written *)

(** With the forms removed by the front end: MIN..MAX and the inclusion of
    another type, given by that type's constraints (all must hold). *)
Inductive src (A : Type) :=
| SUnion (c1 c2 : src A)
| SInter (c1 c2 : src A)
| SAllExcept (c : src A)
| SExcept (c1 c2 : src A)
| SRoot (c : src A)
| SRoot2 (c1 c2 : src A)
| SAtom (a : A)
| SMinMax
| SIncl (l : list (src A)).
Arguments SUnion {A}. Arguments SInter {A}. Arguments SAllExcept {A}. Arguments SExcept {A}.
Arguments SRoot {A}. Arguments SRoot2 {A}. Arguments SAtom {A}. Arguments SMinMax {A}. Arguments SIncl {A}.
Fixpoint sats {A} (p : A -> bool) (c : src A) : bool :=
  match c with
  | SUnion c1 c2 | SRoot2 c1 c2 => sats p c1 || sats p c2
  | SInter c1 c2 => sats p c1 && sats p c2
  | SAllExcept c => negb (sats p c)
  | SExcept c1 c2 => sats p c1 && negb (sats p c2)
  | SRoot c => sats p c
  | SAtom a => p a
  | SMinMax => true
  | SIncl l => forallb (sats p) l
  end.

(** ** Constraints on values of any type *)

(** Equality of values, for single value constraints. *)
Definition dbl_eqb (x y : double) : bool :=
  match x, y with
  | S754_zero s, S754_zero t => Bool.eqb s t
  | S754_infinity s, S754_infinity t => Bool.eqb s t
  | S754_nan, S754_nan => true
  | S754_finite s m e, S754_finite t n f => Bool.eqb s t && Pos.eqb m n && Z.eqb e f
  | _, _ => false
  end.
Section Eqb.
  Context {A : Type} (eqb : A -> A -> bool).
  Fixpoint list_eqb (l k : list A) : bool :=
    match l, k with
    | [], [] => true
    | x :: l, y :: k => eqb x y && list_eqb l k
    | _, _ => false
    end.
End Eqb.
Fixpoint veq (v w : value) : bool :=
  match v, w with
  | VBool a, VBool b => Bool.eqb a b
  | VNull, VNull => true
  | VInt a, VInt b | VEnum a, VEnum b => a =? b
  | VOid a, VOid b | VStr a, VStr b | VOct a, VOct b => eqs a b
  | VReal a, VReal b => dbl_eqb a b
  | VBit a, VBit b => list_eqb Bool.eqb a b
  | VSeqOf a, VSeqOf b => list_eqb veq a b
  | VSeq a, VSeq b =>
      list_eqb (fun x y => Bool.eqb (fst x) (fst y) &&
                           (negb (fst x) || match snd x, snd y with
                                            | Some x, Some y => veq x y
                                            | None, None => true
                                            | _, _ => false
                                            end)) a b
  | VChoice i a, VChoice j b => Nat.eqb i j && veq a b
  | _, _ => false
  end.

Inductive mark := NoMark | MarkOptional | MarkPresent | MarkAbsent.

(** AnyConstraint with what the generator needs of the type: for integers
    whether the C type is unsigned and its width; for strings of octets or bits
    and SEQUENCE OF the size if it is fixed. In WITH COMPONENTS a component is
    given by its position and whether it is OPTIONAL (or has a DEFAULT); [absent]: when the list does not start with "...",
    the OPTIONAL components that are not listed (X.680 51.8.7: implied ABSENT). *)
Inductive acon :=
| AInt (p : bool) (w : Z) (c : icon)
| ABool (c : con bool)
| AEnum (c : con Z)
| AStr (c : scon)
| AOct (fixed : option Z) (c : con (szatom (list Z)))
| ABit (fixed : option Z) (c : con (szatom (list bool)))
| ASeqOf (fixed : option Z) (c : con sqatom)
| ASeq (c : con sratom)
| AChoice (c : con chcatom)
with sqatom :=
| SqVal (v : value)
| SqSize (c : icon)
| SqWith (a : acon)
with sratom :=
| SrVal (v : value)
| SrWith (l : list named) (absent : list nat)
with chcatom :=
| ChVal (v : value)
| ChWith (l : list named)
with named :=
| Named (i : nat) (opt : bool) (c : option acon) (m : mark).

Definition len {A} (l : list A) : Z := Z.of_nat (length l).
(** Presence of the component and, if present, its value. *)
Definition field (l : list (bool * option value)) (i : nat) : bool * option value :=
  nth i l (false, None).
Definition marked (present : bool) (m : mark) : bool :=
  match m with MarkPresent => present | MarkAbsent => negb present | _ => true end.

(** X.680 51. A value of another type satisfies nothing. *)
Fixpoint sat_any (a : acon) (v : value) : bool :=
  match a, v with
  | AInt _ _ c, VInt x => sat_int c x
  | ABool c, VBool b => sat (Bool.eqb b) c
  | AEnum c, VEnum x => sat (Z.eqb x) c
  | AStr c, VStr s => sat_str c s
  | AOct _ c, VOct l => sat (sat_szatom eqs len l) c
  | ABit _ c, VBit l => sat (sat_szatom (list_eqb Bool.eqb) len l) c
  | ASeqOf _ c, VSeqOf l => sat (fun a => sat_sq a l) c
  | ASeq c, VSeq l => sat (fun a => sat_sr a l) c
  | AChoice c, VChoice i v => sat (fun a => sat_chc a i v) c
  | _, _ => false
  end
with sat_sq (a : sqatom) (l : list value) : bool :=
  match a with
  | SqVal v => veq (VSeqOf l) v
  | SqSize c => sat_int c (len l)
  | SqWith a => forallb (sat_any a) l
  end
with sat_sr (a : sratom) (l : list (bool * option value)) : bool :=
  match a with
  | SrVal v => veq (VSeq l) v
  | SrWith ns absent =>
      forallb (fun n =>
        let 'Named i _ c m := n in
        let '(e, w) := field l i in
        marked e m &&
        (negb e || match c, w with
                   | Some c, Some w => sat_any c w
                   | Some c, None => false
                   | None, _ => true
                   end)) ns
      && forallb (fun i => negb (fst (field l i))) absent
  end
with sat_chc (a : chcatom) (k : nat) (v : value) : bool :=
  match a with
  | ChVal w => veq (VChoice k v) w
  | ChWith ns =>
      forallb (fun n =>
        let 'Named i _ c m := n in
        marked (Nat.eqb k i) m &&
        (negb (Nat.eqb k i) || match c with Some c => sat_any c v | None => true end)) ns
  end.

(** ** Types with constraints *)

(** [CPrim cs]: a type without components. [CSeqOf fixed cs t], [CSeq cs fs] with
    the flag "OPTIONAL or DEFAULT" of each component, [CChoice cs ts].
    [CRef cs t]: reference to a type assignment of type t, with further
    constraints. *)
Inductive cty :=
| CPrim (cs : list acon)
| CSeqOf (fixed : option Z) (cs : list (con sqatom)) (t : cty)
| CSeq (cs : list (con sratom)) (fs : list (bool * cty))
| CChoice (cs : list (con chcatom)) (ts : list cty)
| CRef (cs : list acon) (t : cty).

Section Forallb2.
  Context {A B : Type} (f : A -> B -> bool).
  Fixpoint forallb2 (l : list A) (k : list B) : bool :=
    match l, k with
    | [], [] => true
    | x :: l, y :: k => f x y && forallb2 l k
    | _, _ => false
    end.
End Forallb2.
(** The values of a type. *)
Fixpoint sat_ty (t : cty) (v : value) : bool :=
  match t with
  | CPrim cs => forallb (fun c => sat_any c v) cs
  | CSeqOf _ cs t =>
      match v with
      | VSeqOf l => forallb (sat (fun a => sat_sq a l)) cs && forallb (sat_ty t) l
      | _ => false
      end
  | CSeq cs fs =>
      match v with
      | VSeq l =>
          forallb2 (fun (f : bool * cty) (x : bool * option value) =>
            match x with
            | (true, Some w) => sat_ty (snd f) w
            | (true, None) => false
            | (false, _) => fst f
            end) fs l
          && forallb (sat (fun a => sat_sr a l)) cs
      | _ => false
      end
  | CChoice cs ts =>
      match v with
      | VChoice i w =>
          forallb (sat (fun a => sat_chc a i w)) cs
          && match nth_error (map (fun t => sat_ty t w) ts) i with Some b => b | None => false end
      | _ => false
      end
  | CRef cs t => sat_ty t v && forallb (fun c => sat_any c v) cs
  end.
