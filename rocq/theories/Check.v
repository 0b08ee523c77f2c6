(** How the compiler checks the values written in a grammar (CheckAsn1.fs). *)
From Verif Require Export Params.
From Coq Require Import List String Ascii Bool Arith ZArith QArith.
Import ListNotations.
Local Open Scope string_scope.
Local Open Scope list_scope.

(** * Syntax, Asn1Ast.fs:33-148 *)
(** Asn1Value without locations; OBJECT IDENTIFIER and TIME values are left out. A string is the
    text of its parts. REAL values are taken as rational numbers. *)
Inductive xval :=
| XInt (z : Z) | XReal (q : Q) | XStr (s : string) | XBool (b : bool)
| XBits (l : list bool) | XOcts (l : list Z) | XNull
| XRef (m n : string)
| XOf (l : list xval)
| XSeq (l : list (string * xval))
| XCh (n : string) (v : xval).
(** Asn1Constraint. *)
Inductive xcon :=
| NSingle (e : xval)
| NRange (lo hi : xval) (lo_in hi_in : bool)
| NFrom (lo : xval) (lo_in : bool)
| NTo (hi : xval) (hi_in : bool)
| NAny
| NIncl (m T : string)
| NSize (c : xcon) | NAlpha (c : xcon)
| NUnion (c d : xcon) | NInter (c d : xcon) | NAll (c : xcon) | NExcept (c d : xcon)
| NRoot (c : xcon) | NRoot2 (c d : xcon)
| NWith (c : xcon)
| NWiths (l : list (string * pmark * option xcon)).
(** Optionality of a component; [Odefault e]: DEFAULT e. *)
Inductive xopt := Omust | Ooptional | Odefault (e : xval).
(** Asn1Type: kind and constraints. *)
Inductive xtype := XT (k : xkind) (cs : list xcon)
with xkind :=
| TInt | TReal | TStr | TBool | TBits | TOcts | TNull
| TEnum (items : list string)
| TOf (t : xtype)
| TSeq (l : list (string * xopt * xtype))
| TCh (l : list (string * xtype))
| TRef (m T : string).

Fixpoint forallR {A} (f : A -> res bool) (l : list A) : res bool :=
  match l with [] => Done true | x :: l => bind (f x) (fun b => if b then forallR f l else Done false) end.
Definition find_comp (n : string) (l : list (string * xopt * xtype)) : option xtype :=
  match find (fun c => String.eqb (fst (fst c)) n) l with Some (_, _, t) => Some t | None => None end.
Definition same_name (a b : string * string) : bool := String.eqb (fst a) (fst b) && String.eqb (snd a) (snd b).
Fixpoint str_cmp (a b : string) : comparison :=
  match a, b with
  | EmptyString, EmptyString => Eq
  | EmptyString, _ => Lt
  | _, EmptyString => Gt
  | String c a, String d b =>
      match Nat.compare (nat_of_ascii c) (nat_of_ascii d) with Eq => str_cmp a b | o => o end
  end.
(** bitStringValueToByteArray, FsUtils.fs: the bits from the left, filled up with zeros. *)
Fixpoint bits_bytes (fuel : nat) (l : list bool) : list Z :=
  match fuel, l with
  | S f, _ :: _ => fold_left (fun a (b : bool) => (2 * a + if b then 1 else 0)%Z) (firstn 8 (l ++ repeat false 7)) 0%Z :: bits_bytes f (skipn 8 l)
  | _, _ => []
  end.
Definition byte_array (l : list bool) : list Z := bits_bytes (List.length l) l.
Fixpoint explode (s : string) : list string := match s with EmptyString => [] | String c s => String c EmptyString :: explode s end.
(** BigInteger (double): the part after the point is dropped. *)
Definition truncQ (q : Q) : Z := Z.quot (Qnum q) (Z.pos (Qden q)).
Inductive bit_or_oct := TP_OCT | TP_BIT.

Section check.
(** The types and the values (with their types) of all modules; imports are resolved. *)
Variable tyof : string -> string -> option xtype.
Variable valof : string -> string -> option (xtype * xval).

(** GetActualType, Asn1Ast.fs:287-293. *)
Fixpoint actual_type (fuel : nat) (t : xtype) : res xtype :=
  match fuel with
  | O => Endless
  | S f =>
      match t with
      | XT (TRef m T) _ => match tyof m T with Some t' => actual_type f t' | None => Raise end
      | _ => Done t
      end
  end.
(** GetBaseValue, Asn1Ast.fs:324-328. *)
Definition base_value (m n : string) : res xval := match valof m n with Some (_, v) => Done v | None => Raise end.

(** TypeValueMatch, CheckAsn1.fs:56-120. CheckValueType (lines 341-377) raises when it is false. *)
Fixpoint type_match (fuel : nat) (t : xtype) (tn : list (string * string)) (v : xval) (vn : list (string * string)) : res bool :=
  match fuel with
  | O => Endless
  | S f =>
      if match tn, vn with a :: _, b :: _ => same_name a b | _, _ => true end then
      let deref m n :=
        match valof m n with
        | None => Raise
        | Some (XT k _, e) => type_match f t tn e (match k with TRef m' T' => [(m', T')] | _ => [] end ++ vn)
        end in
      match t with XT k _ =>
      match k, v with
      | TRef m T, _ => bind (actual_type f t) (fun t' => type_match f t' ((m, T) :: tn) v vn)
      | TInt, XInt _ | TReal, XReal _ | TReal, XInt _ | TStr, XStr _ | TNull, XNull | TBool, XBool _
      | TBits, XBits _ | TBits, XOcts _ | TOcts, XOcts _ | TOcts, XBits _ => Done true
      | TEnum items, XRef m n => if mem n items then Done true else deref m n
      | TOf c, XOf l => forallR (fun x => type_match f c [] x []) l
      | TSeq cs, XSeq l =>
          bind (forallR (fun c => match c with (n, o, ct) =>
                  match assoc n l with
                  | Some x => type_match f ct [] x []
                  | None => Done (match o with Omust => false | _ => true end)
                  end end) cs)
               (fun b => Done (b && negb (existsb (fun x => negb (mem (fst x) (map (fun c => fst (fst c)) cs))) l)))
      | TCh cs, XCh n x => match assoc n cs with Some ct => type_match f ct [] x [] | None => Done false end
      | _, XRef m n => deref m n
      | _, _ => Done false
      end end
      else Raise
  end.

(** AreAsn1ValuesEqual, lines 125-144; line 140 compares [m1] with itself. *)
Fixpoint values_equal (fuel : nat) (is_enum : bool) (v w : xval) : res bool :=
  match fuel with
  | O => Endless
  | S f =>
      match v, w with
      | XInt a, XInt b => Done (Z.eqb a b)
      | XInt a, XReal b => Done (Z.eqb a (truncQ b))
      | XReal a, XInt b => Done (Z.eqb (truncQ a) b)
      | XReal a, XReal b => Done (Qeq_bool a b)
      | XStr a, XStr b => Done (String.eqb a b)
      | XBool a, XBool b => Done (Bool.eqb a b)
      | XBits a, XBits b => Done (if list_eq_dec Bool.bool_dec a b then true else false)
      | XOcts a, XOcts b => Done (if list_eq_dec Z.eq_dec a b then true else false)
      | XBits a, XOcts b => Done (if list_eq_dec Z.eq_dec (byte_array a) b then true else false)
      | XOcts a, XBits b => Done (if list_eq_dec Z.eq_dec a (byte_array b) then true else false)
      | XOf a, XOf b =>
          if (List.length a =? List.length b)%nat then forallR (fun p => values_equal f is_enum (fst p) (snd p)) (combine a b) else Done false
      | XSeq a, XSeq b =>
          if (List.length a =? List.length b)%nat
          then forallR (fun p => if String.eqb (fst (fst p)) (fst (snd p)) then values_equal f is_enum (snd (fst p)) (snd (snd p)) else Done false) (combine a b)
          else Done false
      | XCh n a, XCh n' b => if String.eqb n n' then values_equal f is_enum a b else Done false
      | XNull, XNull => Done true
      | XRef m n, XRef m' n' => Done (String.eqb m m && String.eqb n n')
      | XRef m n, _ => if is_enum then Done false else bind (base_value m n) (fun v' => values_equal f is_enum v' w)
      | _, XRef m n => if is_enum then Done false else bind (base_value m n) (fun w' => values_equal f is_enum v w')
      | _, _ => Done false
      end
  end.
(** CompareAsn1Value, lines 147-160. *)
Fixpoint compare_values (fuel : nat) (v w : xval) : res comparison :=
  match fuel with
  | O => Endless
  | S f =>
      match v, w with
      | XInt a, XInt b => Done (Z.compare a b)
      | XInt a, XReal b => Done (Z.compare a (truncQ b))
      | XReal a, XInt b => Done (Z.compare (truncQ a) b)
      | XReal a, XReal b => Done (Qcompare a b)
      | XStr a, XStr b => Done (str_cmp a b)
      | XRef m n, _ => bind (base_value m n) (fun v' => compare_values f v' w)
      | _, XRef m n => bind (base_value m n) (fun w' => compare_values f v w')
      | _, _ => Raise
      end
  end.
Definition low (incl : bool) (c : comparison) : bool := match c with Lt => true | Eq => incl | Gt => false end.
Definition bothR (a b : res bool) : res bool := bind a (fun x => if x then b else Done false).
(** Both sides are evaluated. *)
Definition andR (a b : res bool) : res bool := bind a (fun x => bind b (fun y => Done (x && y))).
(** IsValueAllowed, lines 174-284. *)
Fixpoint allowed (fuel : nat) (c : xcon) (v : xval) (is_enum : bool) (bo : option bit_or_oct) : res bool :=
  match fuel with
  | O => Endless
  | S f =>
      let le (i : bool) (a b : xval) := bind (compare_values f a b) (fun o => Done (low i o)) in
      match c with
      | NSingle e => values_equal f is_enum e v
      | NRange a b i j => bothR (le i a v) (le j v b)
      | NFrom a i => le i a v
      | NTo b j => le j v b
      | NAny => Done true
      | NSize sc =>
          let size n := allowed f sc (XInt n) is_enum bo in
          match v with
          | XStr s => size (Z.of_nat (String.length s))
          | XBits s =>
              match bo with
              | Some TP_BIT => size (Z.of_nat (List.length s))
              | Some TP_OCT => if (List.length s mod 8 =? 0)%nat then size (Z.of_nat (List.length s / 8)) else Done false
              | None => Done false
              end
          | XOcts a =>
              match bo with
              | Some TP_BIT => size (Z.of_nat (List.length a * 8))
              | Some TP_OCT => size (Z.of_nat (List.length a))
              | None => Done false
              end
          | XOf a => size (Z.of_nat (List.length a))
          | XRef m n => bind (base_value m n) (fun w => allowed f c w is_enum bo)
          | _ => Raise
          end
      | NAlpha ac =>
          match v with
          | XStr s =>
              match ac with
              | NSingle (XStr set) => Done (forallb (fun x => mem x (explode set)) (explode s))
              | NSingle _ => Done false
              | _ => forallR (fun x => allowed f ac (XStr x) is_enum bo) (explode s)
              end
          | XRef m n => bind (base_value m n) (fun w => allowed f c w is_enum bo)
          | _ => Raise
          end
      | NUnion c d => bind (allowed f c v is_enum bo) (fun x => bind (allowed f d v is_enum bo) (fun y => Done (x || y)))
      | NInter c d => bothR (allowed f c v is_enum bo) (allowed f d v is_enum bo)
      | NAll c => bind (allowed f c v is_enum bo) (fun x => Done (negb x))
      | NExcept c d => bothR (allowed f c v is_enum bo) (bind (allowed f d v is_enum bo) (fun x => Done (negb x)))
      | NRoot c => allowed f c v is_enum bo
      | NRoot2 c d => bind (allowed f c v is_enum bo) (fun x => if x then Done true else allowed f d v is_enum bo)
      | NIncl m T =>
          match tyof m T with
          | Some (XT _ cs) => forallR (fun c => allowed f c v is_enum bo) cs
          | None => Raise
          end
      | NWith ic =>
          match v with
          | XOf l => forallR (fun x => allowed f ic x is_enum bo) l
          | XRef m n => bind (base_value m n) (fun w => allowed f c w is_enum bo)
          | _ => Raise
          end
      | NWiths ncs =>
          match v with
          | XSeq l =>
              forallR (fun nc => match nc with (n, mark, oc) =>
                match mark, assoc n l, oc with
                | NoMark, None, _ => Done true
                | NoMark, Some x, Some ic => allowed f ic x is_enum bo
                | NoMark, Some _, None => Done true
                | MarkPresent, None, _ => Done false
                | MarkPresent, Some _, None => Done true
                | MarkPresent, Some x, Some ic => allowed f ic x is_enum bo
                | MarkAbsent, None, _ => Done true
                | MarkAbsent, Some _, _ => Done false
                | MarkOptional, Some x, Some ic => allowed f ic x is_enum bo
                | MarkOptional, Some _, None => Done true
                | MarkOptional, None, None => Done true
                | MarkOptional, None, Some _ => Done false
                end end) ncs
          | XCh n x =>
              match find (fun nc => String.eqb (fst (fst nc)) n) ncs with
              | None => Done true
              | Some (_, MarkAbsent, _) => Done false
              | Some (_, _, Some ic) => allowed f ic x is_enum bo
              | Some (_, _, None) => Done true
              end
          | XRef m n => bind (base_value m n) (fun w => allowed f c w is_enum bo)
          | _ => Raise
          end
      end
  end.
(** CheckIfVariableViolatesTypeConstraints, lines 291-322 (true when nothing is violated). *)
Fixpoint conforms (fuel : nat) (t : xtype) (v : xval) : res bool :=
  match fuel with
  | O => Endless
  | S f =>
      match t with XT k cs =>
      match k with
      | TRef m T =>
          match tyof m T with Some (XT k' cs') => conforms f (XT k' (cs' ++ cs)) v | None => Raise end
      | _ =>
          match v, k with
          | XRef m n, TEnum items => forallR (fun c => allowed f c v (mem n items) None) cs
          | _, _ =>
              let bo := match k with TOcts => Some TP_OCT | TBits => Some TP_BIT | _ => None end in
              let ret := forallR (fun c => allowed f c v false bo) cs in
              match v, k with
              | XOf l, TOf ct => bothR ret (forallR (fun x => conforms f ct x) l)
              | XSeq l, TSeq comps =>
                  andR ret (forallR (fun nx => match find_comp (fst nx) comps with Some ct => conforms f ct (snd nx) | None => Done false end) l)
              | XCh n x, TCh alts => andR ret (match assoc n alts with Some ct => conforms f ct x | None => Done false end)
              | _, _ => ret
              end
          end
      end end
  end.
(** Check of a default value, lines 533-548 (the same for value assignments, 633-639, where a
    violation is only a warning): refused when not of the type, or against its constraints. *)
Definition accepts (fuel : nat) (t : xtype) (v : xval) : res bool :=
  bind (type_match fuel t [] v []) (fun b => if b then conforms fuel t v else Raise).
End check.
