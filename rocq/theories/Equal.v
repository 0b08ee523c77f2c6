(** The generated equality functions T_Equal: BackendAst/DAstEqual.fs with
    StgC/equal_c.stg and the functions of the run-time library they call
    (asn1crt/asn1crt.c).

    The objects are C objects, with everything the abstract value does not
    determine: bytes beyond nCount, unused bits, members that are absent. A read
    outside an array is UB, as is an object of the wrong shape. *)
From Coq Require Import Floats.SpecFloat.
From Verif Require Import Base Bits BitStream Misc RealSpec RealC.

(** C objects: integers and enumerations; flag (C bool); double; char arrays;
    structs with nCount and a byte (or integer) array, the fixed-size ones having
    no nCount in C (the field is then ignored); structs with nCount and an array
    of structs; structs of members with their exist bits; tagged unions. *)
Inductive cobj :=
| XInt (z : Z)
| XFlag (b : bool)
| XDbl (x : double)
| XChars (a : list Z)
| XArr (nCount : Z) (a : list Z)
| XList (nCount : Z) (a : list cobj)
| XStruct (l : list (bool * cobj))
| XUnion (kind : nat) (m : cobj).

(** The types, as far as DAstEqual.fs looks at them. Sizes are minSize.uper and
    maxSize.uper. A component is a pair of [Optionality.IsSome] and its type.
    [ECall b t] is a type whose function has a name of its own
    (isEqualFuncName = Some), where the function called is that of [b]: for a
    reference to a composite type the function of the base type
    (DAstEqual.fs:298-317, 335-371), otherwise b = t. TIME types and REAL of
    class FP32 are left out. *)
Inductive ety :=
| EInt | EBool | EEnum | ENull | EReal | EStr | EOid
| EOct (min max : Z)
| EBit (min max : Z)
| ESeqOf (min max : Z) (t : ety)
| ESeq (fs : list (bool * ety))
| EChoice (ts : list ety)
| ECall (b t : ety).

(** strcmp (a, b) == 0: UB when an array ends before its NUL. *)
Fixpoint strcmp_eq (a b : list Z) : outcome bool :=
  match a, b with
  | x :: a, y :: b => if x =? y then (if x =? 0 then Ok true else strcmp_eq a b) else Ok false
  | _, _ => UB
  end.

(** Asn1Real_Equal, asn1crt.c:58-70; the constant 0.99999 is the double nearest to it. *)
Definition D99999 : double := S754_finite false 9007109182748445 (-53).
Definition dle (x y : double) : bool := match SFcompare x y with Some Lt | Some Eq => true | _ => false end.
Definition dltb (x y : double) : bool := match SFcompare x y with Some Lt => true | _ => false end.
Definition deqb (x y : double) : bool := match SFcompare x y with Some Eq => true | _ => false end.
Definition D0 : double := S754_zero false.
Definition Asn1Real_Equal (l r : double) : bool :=
  if deqb l r then true
  else if deqb l D0 then deqb r D0
  else if (dltb D0 l && dltb r D0) || (dltb l D0 && dltb D0 r) then false
  else if dltb (SFabs r) (SFabs l) then dle D99999 (ddiv (SFabs r) (SFabs l))
  else dle D99999 (ddiv (SFabs l) (SFabs r)).

(** A statement: it assigns ret and reads the two objects. *)
Definition estmt := cobj -> cobj -> bool -> outcome bool.
(** "ret = (exp);" (DAstEqual.fs:69, 102, 252) *)
Definition ret_exp (e : cobj -> cobj -> outcome bool) : estmt := fun o1 o2 _ => e o1 o2.

(** isEqual_Primitive, equal_c.stg:90 *)
Definition exp_prim (o1 o2 : cobj) : outcome bool :=
  match o1, o2 with
  | XInt a, XInt b => Ok (a =? b)
  | XFlag a, XFlag b => Ok (Bool.eqb a b)
  | _, _ => UB
  end.
(** isEqual_Real, equal_c.stg:102 *)
Definition exp_real (o1 o2 : cobj) : outcome bool :=
  match o1, o2 with XDbl a, XDbl b => Ok (Asn1Real_Equal a b) | _, _ => UB end.
(** isEqual_String, equal_c.stg:92 *)
Definition exp_str (o1 o2 : cobj) : outcome bool :=
  match o1, o2 with XChars a, XChars b => strcmp_eq a b | _, _ => UB end.
(** isObjectIdentifier_equal, equal_c.stg:132-134 *)
Definition exp_oid (o1 o2 : cobj) : outcome bool :=
  match o1, o2 with XArr n1 a, XArr n2 b => ObjectIdentifier_equal n1 n2 a b | _, _ => UB end.
(** isEqual_OctetString, equal_c.stg:124-130: bIsFixedSize is sMin = sMax and
    nFixedSize is sMax (DAstEqual.fs:48-51). The variable-size form is that of
    OctetString_equal. *)
Definition exp_oct (min max : Z) (o1 o2 : cobj) : outcome bool :=
  match o1, o2 with
  | XArr n1 a, XArr n2 b => if min =? max then memeq a b max else OctetString_equal n1 n2 a b
  | _, _ => UB
  end.
(** isEqual_BitString, equal_c.stg:109-120: the expression is that of
    BitString_equal (asn1crt_encoding.c:53-59), with nFixedSize for both counts
    in the fixed-size form (DAstEqual.fs:53-56). *)
Definition exp_bit (min max : Z) (o1 o2 : cobj) : outcome bool :=
  match o1, o2 with
  | XArr n1 a, XArr n2 b => if min =? max then BitString_equal max max a b else BitString_equal n1 n2 a b
  | _, _ => UB
  end.

(** for (i = 0; ret && i < n; i++) inner, equal_c.stg:177-180, 186-189, on the
    items from i on. *)
Fixpoint eq_loop (inner : estmt) (n : nat) (a b : list cobj) (ret : bool) : outcome bool :=
  match n with
  | O => Ok ret
  | S n =>
      if ret then
        match a, b with
        | x :: a, y :: b => obind (inner x y ret) (fun ret => eq_loop inner n a b ret)
        | _, _ => UB
        end
      else Ok false
  end.

(** A component of a SEQUENCE: isEqualBodySequenceChild (DAstEqual.fs:59-81) with
    isEqual_Sequence_child (equal_c.stg:156-170). [None] is no statement. *)
Definition eq_child (opt : bool) (inner : option estmt) : option (bool * cobj -> bool * cobj -> bool -> outcome bool) :=
  if opt then
    Some (fun m1 m2 _ =>
      let ret := Bool.eqb (fst m1) (fst m2) in
      match inner with
      | None => Ok ret
      | Some f => if ret && fst m1 then f (snd m1) (snd m2) ret else Ok ret
      end)
  else match inner with None => None | Some f => Some (fun m1 m2 => f (snd m1) (snd m2)) end.
(** printChildren and JoinItems (DAstEqual.fs:264-283, equal_c.stg:4-12): each
    statement is followed by the rest under if (ret). The components without a
    statement are skipped; [None] if none has one. *)
Definition seq_step (s : option (bool * cobj -> bool * cobj -> bool -> outcome bool))
  (rest : option (list (bool * cobj) -> list (bool * cobj) -> bool -> outcome bool)) :
  option (list (bool * cobj) -> list (bool * cobj) -> bool -> outcome bool) :=
  let at_hd f := fun l1 l2 r => match l1, l2 with m1 :: _, m2 :: _ => f m1 m2 r | _, _ => UB end in
  let at_tl g := fun l1 l2 (r : bool) => match l1, l2 with _ :: l1, _ :: l2 => g l1 l2 r | _, _ => UB end in
  match s, rest with
  | None, None => None
  | Some f, None => Some (at_hd f)
  | None, Some g => Some (at_tl g)
  | Some f, Some g =>
      Some (fun l1 l2 r => obind (at_hd f l1 l2 r) (fun r => if r then at_tl g l1 l2 r else Ok r))
  end.

(** The switch of isEqual_Choice (equal_c.stg:144-154); an alternative without a
    statement gets ret = TRUE (DAstEqual.fs:103, 107). *)
Definition alt_stmt (inner : option estmt) : estmt :=
  match inner with None => fun _ _ _ => Ok true | Some f => f end.

Fixpoint body (t : ety) : option estmt :=
  match t with
  | EInt | EBool | EEnum => Some (ret_exp exp_prim)
  | ENull => None                                                     (* DAstEqual.fs:218-220 *)
  | EReal => Some (ret_exp exp_real)
  | EStr => Some (ret_exp exp_str)
  | EOid => Some (ret_exp exp_oid)
  | EOct min max => Some (ret_exp (exp_oct min max))
  | EBit min max => Some (ret_exp (exp_bit min max))
  | ESeqOf min max t =>                                               (* DAstEqual.fs:234-257 *)
      match body t with
      | None =>
          if min =? max then None
          else Some (fun o1 o2 _ => match o1, o2 with XList n1 _, XList n2 _ => Ok (n1 =? n2) | _, _ => UB end)
      | Some inner =>
          if min =? max then
            Some (fun o1 o2 r => match o1, o2 with XList _ a, XList _ b => eq_loop inner (Z.to_nat min) a b r | _, _ => UB end)
          else
            Some (fun o1 o2 _ => match o1, o2 with
              | XList n1 a, XList n2 b => eq_loop inner (Z.to_nat n1) a b (n1 =? n2)
              | _, _ => UB
              end)
      end
  | ESeq fs =>
      match (fix go fs := match fs with
             | [] => None
             | (opt, t) :: fs => seq_step (eq_child opt (body t)) (go fs)
             end) fs with
      | None => None
      | Some f => Some (fun o1 o2 r => match o1, o2 with XStruct l1, XStruct l2 => f l1 l2 r | _, _ => UB end)
      end
  | EChoice ts =>                                                     (* DAstEqual.fs:289-301 *)
      Some (fun o1 o2 _ =>
        match o1, o2 with
        | XUnion k1 m1, XUnion k2 m2 =>
            if Nat.eqb k1 k2 then
              (fix go ts k := match ts, k with
               | [], _ => Ok false
               | t :: _, O => alt_stmt (body t) m1 m2 true
               | _ :: ts, S k => go ts k
               end) ts k1
            else Ok false
        | _, _ => UB
        end)
  | ECall b _ =>                                   (* ret = b_Equal(p1, p2): equal_c.stg:193-202 *)
      Some (fun o1 o2 _ => match body b with None => Ok true | Some f => f o1 o2 true end)
  end.

(** T_Equal: createEqualFunction_any (DAstEqual.fs:118-150) with
    equalTypeAssignment (equal_c.stg:67-87); TRUE when there is no body. *)
Definition T_Equal (t : ety) (o1 o2 : cobj) : outcome bool :=
  match body t with None => Ok true | Some f => f o1 o2 true end.
