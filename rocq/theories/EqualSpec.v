(** Specification for the generated equality functions: the abstract value an
    object stands for. *)
From Verif Require Import Base Bits RealSpec Equal.

(** Abstract values. *)
Inductive aval :=
| AvInt (z : Z) | AvBool (b : bool) | AvNull | AvReal (x : double)
| AvStr (s : list Z) | AvOid (l : list Z) | AvOct (l : list Z) | AvBit (l : list bool)
| AvList (l : list aval)
| AvSeq (l : list (option aval))
| AvAlt (k : nat) (v : aval).

(** The characters before the first NUL; [None] if there is no NUL. *)
Fixpoint cstring (a : list Z) : option (list Z) :=
  match a with
  | [] => None
  | x :: a => if x =? 0 then Some [] else match cstring a with Some s => Some (x :: s) | None => None end
  end.

Fixpoint sequence {A} (l : list (option A)) : option (list A) :=
  match l with
  | [] => Some []
  | Some x :: l => match sequence l with Some l => Some (x :: l) | None => None end
  | None :: _ => None
  end.
Definition byteb (x : Z) : bool := (0 <=? x) && (x <=? 255).

(** The value of an object, [None] if the object does not stand for a value:
    nCount negative or larger than the array, no NUL, a kind that is no
    alternative. Fixed-size types have no nCount. *)
Definition count (min max n : Z) : Z := if min =? max then max else n.
Fixpoint abs (t : ety) (o : cobj) : option aval :=
  match t, o with
  | (EInt | EEnum), XInt z => Some (AvInt z)
  | EBool, XFlag b => Some (AvBool b)
  | ENull, XInt _ => Some AvNull
  | EReal, XDbl x => Some (AvReal x)
  | EStr, XChars a => option_map AvStr (cstring a)
  | EOid, XArr n a =>
      if (0 <=? n) && (n <=? 20) && Nat.eqb (length a) 20 then Some (AvOid (firstn (Z.to_nat n) a)) else None
  | EOct min max, XArr n a =>
      let n := count min max n in
      if (0 <=? n) && (n <=? Z.of_nat (length a)) then Some (AvOct (firstn (Z.to_nat n) a)) else None
  | EBit min max, XArr n a =>
      let n := count min max n in
      if (0 <=? n) && (n <=? 8 * Z.of_nat (length a)) && forallb byteb a then Some (AvBit (take_bits n a)) else None
  | ESeqOf min max t, XList n a =>
      let n := count min max n in
      if (0 <=? n) && (n <=? Z.of_nat (length a)) then
        option_map AvList (sequence (map (abs t) (firstn (Z.to_nat n) a)))
      else None
  | ESeq fs, XStruct l =>
      option_map AvSeq
        ((fix go fs l := match fs, l with
          | [], [] => Some []
          | (opt, t) :: fs, (e, m) :: l =>
              match (if opt && negb e then Some None else option_map Some (abs t m)), go fs l with
              | Some v, Some vs => Some (v :: vs)
              | _, _ => None
              end
          | _, _ => None
          end) fs l)
  | EChoice ts, XUnion k m =>
      option_map (AvAlt k)
        ((fix go ts j := match ts, j with
          | [], _ => None
          | t :: _, O => abs t m
          | _ :: ts, S j => go ts j
          end) ts k)
  | ECall _ t, o => abs t o
  | _, _ => None
  end.

(** The object layouts of a type and of the base type whose function is called
    agree: a size that is fixed (no nCount) in one is the same fixed size in the
    other. *)
Definition same_size (a b c d : Z) : bool := if a =? b then (c =? d) && (b =? d) else negb (c =? d).
Fixpoint alike (b t : ety) : bool :=
  match b, t with
  | EInt, EInt | EBool, EBool | EEnum, EEnum | ENull, ENull | EStr, EStr | EOid, EOid => true
  | EReal, EReal => true
  | EOct a b, EOct c d | EBit a b, EBit c d => same_size a b c d
  | ESeqOf a b t, ESeqOf c d u => same_size a b c d && alike t u
  | ESeq fs, ESeq gs =>
      (fix go fs gs := match fs, gs with
       | [], [] => true
       | (o, t) :: fs, (p, u) :: gs => Bool.eqb o p && alike t u && go fs gs
       | _, _ => false
       end) fs gs
  | EChoice ts, EChoice us =>
      (fix go ts us := match ts, us with
       | [], [] => true
       | t :: ts, u :: us => alike t u && go ts us
       | _, _ => false
       end) ts us
  | ECall _ t, ECall _ u => alike t u
  | _, _ => false
  end.

(** Every function called is that of a type with the same layout. *)
Fixpoint calls_ok (t : ety) : Prop :=
  match t with
  | ESeqOf _ _ t => calls_ok t
  | ESeq fs => (fix go fs := match fs with [] => True | (_, t) :: fs => calls_ok t /\ go fs end) fs
  | EChoice ts => (fix go ts := match ts with [] => True | t :: ts => calls_ok t /\ go ts end) ts
  | ECall b t => alike b t = true /\ calls_ok b
  | _ => True
  end.

(** Equality of values, with REAL up to Asn1Real_Equal. *)
Fixpoint sameb (v w : aval) : bool :=
  match v, w with
  | AvInt a, AvInt b => a =? b
  | AvBool a, AvBool b => Bool.eqb a b
  | AvNull, AvNull => true
  | AvReal x, AvReal y => Asn1Real_Equal x y
  | AvStr a, AvStr b | AvOid a, AvOid b | AvOct a, AvOct b => if list_eq_dec Z.eq_dec a b then true else false
  | AvBit a, AvBit b => if list_eq_dec Bool.bool_dec a b then true else false
  | AvList a, AvList b =>
      (fix go a b := match a, b with
       | [], [] => true
       | x :: a, y :: b => sameb x y && go a b
       | _, _ => false
       end) a b
  | AvSeq a, AvSeq b =>
      (fix go a b := match a, b with
       | [], [] => true
       | Some x :: a, Some y :: b => sameb x y && go a b
       | None :: a, None :: b => go a b
       | _, _ => false
       end) a b
  | AvAlt k x, AvAlt j y => Nat.eqb k j && sameb x y
  | _, _ => false
  end.

(** All REAL values in a value satisfy a predicate. *)
Fixpoint reals (P : double -> Prop) (v : aval) : Prop :=
  match v with
  | AvReal x => P x
  | AvList l => (fix go l := match l with [] => True | v :: l => reals P v /\ go l end) l
  | AvSeq l => (fix go l := match l with [] => True | Some v :: l => reals P v /\ go l | None :: l => go l end) l
  | AvAlt _ v => reals P v
  | _ => True
  end.
(** A type without REAL. *)
Fixpoint no_real (t : ety) : Prop :=
  match t with
  | EReal => False
  | ESeqOf _ _ t => no_real t
  | ESeq fs => (fix go fs := match fs with [] => True | (_, t) :: fs => no_real t /\ go fs end) fs
  | EChoice ts => (fix go ts := match ts with [] => True | t :: ts => no_real t /\ go ts end) ts
  | ECall _ t => no_real t
  | _ => True
  end.
