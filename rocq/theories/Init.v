(** The functions _Initialize generated by BackendAst/DAstInitialize.fs with the C
    templates of StgC/init_c.stg. A function is modelled by the value it leaves in
    its argument; [None]: the generator raises an exception. Types REAL, TIME and
    the global constants (option -ig) are left out, except for the constant
    expressions of BOOLEAN and ENUMERATED. *)
From Verif Require Import Base Bits UperTypes ConSpec Constraints Pipeline.

(** Asn1Optionality of a component *)
Inductive nopt :=
| NRequired
| NOptional (def : option value)       (* OPTIONAL, or DEFAULT *)
| NAlwaysAbsent
| NAlwaysPresent.

(** Types; the lists are AllCons, the constraints of the type and of all types it
    refers to. [p], [w]: the C type. [d]: the characters of the string type. The
    items of an ENUMERATED are given by their values. [NCall cs t]: a reference to
    a type assignment of type t with constraints that keep it equivalent
    (uperEquivalence, FrontEndAst/TypesEquivalence.fs:5-38: WITH COMPONENTS is not
    compared); other references are resolved, that is replaced by the type with
    all constraints. *)
Inductive nty :=
| NInt (p : bool) (w : Z) (cs : list icon)
| NBool (cs : list (con bool))
| NEnum (items : list Z) (cs : list (con Z))
| NNull
| NOid
| NStr (d : list Z) (cs : list scon)
| NOct (cs : list (con (szatom (list Z))))
| NBit (cs : list (con (szatom (list bool))))
| NSeqOf (cs : list (con sqatom)) (t : nty)
| NSeq (cs : list (con sratom)) (fs : list (nopt * nty))
| NChoice (cs : list (con chcatom)) (ts : list nty)
| NCall (cs : list acon) (t : nty).

(** ** INTEGER *)

(** IntMin, IntMax, CommonTypes.fs:1039-1061, with integers of 8 bytes *)
Definition IntMin (p : bool) : Z := if p then 0 else - 2 ^ 63.
Definition IntMax (p : bool) : Z := if p then 2 ^ 64 - 1 else 2 ^ 63 - 1.
(** evalRangeCon, isValidValueRanged, FrontEndAst/Asn1Fold.fs:552-577 *)
Definition upTo (incl : bool) (a b : Z) : bool := if incl then a <=? b else a <? b.
Fixpoint evalRangeCon (c : icon) (x : Z) : bool :=
  match c with
  | Union e1 e2 => evalRangeCon e1 x || evalRangeCon e2 x
  | Inter e1 e2 => evalRangeCon e1 x && evalRangeCon e2 x
  | AllExcept e => negb (evalRangeCon e x)
  | Except e1 e2 => evalRangeCon e1 x && negb (evalRangeCon e2 x)
  | Root e => evalRangeCon e x
  | Root2 e1 e2 => evalRangeCon e1 x || evalRangeCon e2 x
  | Atom (Val v) => v =? x
  | Atom (Rng a b ai bi) => upTo ai a x && upTo bi x b
  | Atom (Ge a ai) => upTo ai a x
  | Atom (Le b bi) => upTo bi x b
  end.
Definition isValidValueRanged (cs : list icon) (x : Z) : bool :=
  fold_left (fun s c => s && evalRangeCon c x) cs true.
(** foldRangeCon, EncodeDecodeTestCase.fs:330-345; getNext, getPrev: 366-367 *)
Definition getNext (p : bool) (a : Z) : Z := if a <? IntMax p then a + 1 else IntMax p.
Definition getPrev (p : bool) (a : Z) : Z := if IntMin p <? a then a - 1 else IntMin p.
Fixpoint foldRangeCon (p : bool) (c : icon) : list Z :=
  match c with
  | Union e1 e2 => foldRangeCon p e1 ++ foldRangeCon p e2
  | Inter e1 e2 => foldRangeCon p e1 ++ foldRangeCon p e2
  | AllExcept e => []
  | Except e1 e2 => foldRangeCon p e1
  | Root e => foldRangeCon p e
  | Root2 e1 e2 => foldRangeCon p e1 ++ foldRangeCon p e2
  | Atom (Val v) => [v]
  | Atom (Rng a b ai bi) => [if ai then a else getNext p a; if bi then b else getPrev p b]
  | Atom (Ge a ai) => [if ai then a else getNext p a; IntMax p]
  | Atom (Le b bi) => [IntMin p; if bi then b else getPrev p b]
  end.
(** IntegerAutomaticTestCaseValues, EncodeDecodeTestCase.fs:361-373 *)
Definition IntegerAutomaticTestCaseValues (p : bool) (cs : list icon) : list Z :=
  match cs with
  | [] => distinct [IntMin p; 0; IntMax p]
  | _ => filter (isValidValueRanged cs) (distinct (flat_map (foldRangeCon p) cs))
  end.
(** createIntegerInitFunc, DAstInitialize.fs:225-265 *)
Definition init_int (p : bool) (cs : list icon) : Z :=
  if isValidValueRanged cs 0 then 0
  else match IntegerAutomaticTestCaseValues p cs with x :: _ => x | [] => 0 end.

(** ** BOOLEAN, ENUMERATED *)

(** evalGenericCon, isValidValueGeneric, Asn1Fold.fs:535-549 *)
Fixpoint evalGenericCon {V} (eqf : V -> V -> bool) (c : con V) (x : V) : bool :=
  match c with
  | Union e1 e2 => evalGenericCon eqf e1 x || evalGenericCon eqf e2 x
  | Inter e1 e2 => evalGenericCon eqf e1 x && evalGenericCon eqf e2 x
  | AllExcept e => negb (evalGenericCon eqf e x)
  | Except e1 e2 => evalGenericCon eqf e1 x && negb (evalGenericCon eqf e2 x)
  | Root e => evalGenericCon eqf e x
  | Root2 e1 e2 => evalGenericCon eqf e1 x || evalGenericCon eqf e2 x
  | Atom v => eqf v x
  end.
Definition isValidValueGeneric {V} (eqf : V -> V -> bool) (cs : list (con V)) (x : V) : bool :=
  fold_left (fun s c => s && evalGenericCon eqf c x) cs true.
(** createBooleanInitFunc, DAstInitialize.fs:602-606; the constant expression: 608 *)
Definition init_bool (cs : list (con bool)) : bool := negb (isValidValueGeneric Bool.eqb cs false).
Definition const_bool (cs : list (con bool)) : bool := false.
(** EnumeratedAutomaticTestCaseValues2, EncodeDecodeTestCase.fs:401-405;
    createEnumeratedInitFunc, DAstInitialize.fs:699-710: testCaseFuncs.Head; the
    constant expression is o.items.Head *)
Definition enum_cases (items : list Z) (cs : list (con Z)) : list Z :=
  match cs with [] => items | _ => filter (isValidValueGeneric Z.eqb cs) items end.
Definition init_enum (items : list Z) (cs : list (con Z)) : option Z :=
  match enum_cases items cs with x :: _ => Some x | [] => None end.
Definition const_enum (items : list Z) (cs : list (con Z)) : option Z :=
  match items with x :: _ => Some x | [] => None end.

(** ** Sizes *)

Definition size_ends (o : option range) : option (Z * Z) := obind o getSizeMinAndMaxValue.
(** getValueFromSizeableConstraint, BackendAst/DastFold.fs:68-79: single values,
    also the excluded ones *)
Fixpoint getValueFromSizeableConstraint {V} (c : con (szatom V)) : list V :=
  match c with
  | Union e1 e2 | Inter e1 e2 | Except e1 e2 | Root2 e1 e2 =>
      getValueFromSizeableConstraint e1 ++ getValueFromSizeableConstraint e2
  | AllExcept e | Root e => getValueFromSizeableConstraint e
  | Atom (SzVal v) => [v]
  | Atom (Size _) => []
  end.
(** createOctetStringInitFunc, DAstInitialize.fs:379-464, and
    createBitStringInitFunc, 480-558: the first single value, assigned as a compound
    literal; or all zero with nCount = minSize.uper (initTestCaseOctetString,
    initTestCaseBitString with bZero, init_c.stg:119-148). A type of fixed size has
    no nCount: the size is minSize = maxSize. *)
Definition init_sized {V} (zero : V) (cs : list (con (szatom (list V)))) : option (list V) :=
  obind (size_ends (getSizeableUperRange len cs)) (fun '(a, _) =>
  Some match flat_map getValueFromSizeableConstraint cs with
       | v :: _ => v
       | [] => repeat zero (Z.to_nat a)
       end).
(** getSequenceOfUperRange, uPER.fs:94-127 *)
Definition sq_range (c : con sqatom) : option range :=
  range_of (fun a => match a with
                     | SqVal (VSeqOf l) => Some (Concrete (u32 (len l)) (u32 (len l)))
                     | SqVal _ => None
                     | SqSize c => size_range c
                     | SqWith _ => Some Full
                     end) c.
Definition getSequenceOfUperRange (cs : list (con sqatom)) : option range := fold_ranges sq_range Full cs.

(** ** IA5String, createIA5StringInitFunc, DAstInitialize.fs:319-377 *)

(** firstPrintableAsciiCode, sFirstNonNullChar; memset of maxSize.uper characters
    and a terminator (init_c.stg:86-90). The string ends at the first NUL. *)
Definition first_char (l : list Z) : Z :=
  match find (fun x => (32 <=? x) && (x <=? 126)) l with Some c => c | None => 0 end.
Definition init_str (d : list Z) (cs : list scon) : option (list Z) :=
  obind (size_ends (getStringSizeUperRange cs)) (fun '(_, b) =>
  obind (getSrtingAlphaUperRange d cs) (fun l =>
  let c := first_char l in
  Some (if c =? 0 then [] else repeat c (Z.to_nat b)))).

(** ** Assigning a DEFAULT value: initByAsn1Value *)

(** Number of octets of bitStringValueToByteArray *)
Definition octets (n : Z) : Z := (n + 7) / 8.
(** createBitStringInitFunc, DAstInitialize.fs:485-495: nCount is set to the number
    of octets, not of bits. *)
Definition byval_bits (fixed : bool) (l : list bool) : list bool :=
  if fixed then l else firstn (Z.to_nat (octets (len l))) l.
Definition var_bits (cs : list (con (szatom (list bool)))) : bool :=
  match size_ends (getSizeableUperRange len cs) with Some (a, b) => negb (a =? b) | None => false end.
(** Other types without components are assigned the value. Components:
    DAstInitialize.fs:728-750, 876-898, 1100-1123. A component that is not in the
    value and not OPTIONAL does not occur. *)
Fixpoint byval (t : nty) (v : value) {struct t} : value :=
  match t, v with
  | NBit cs, VBit l => VBit (byval_bits (negb (var_bits cs)) l)
  | NSeqOf _ t, VSeqOf l => VSeqOf (map (byval t) l)
  | NSeq _ fs, VSeq l =>
      VSeq ((fix go (fs : list (nopt * nty)) (l : list (bool * option value)) : list (bool * option value) :=
               match fs, l with
               | (o, t) :: fs, (e, w) :: l => (e, option_map (byval t) w) :: go fs l
               | _, l => l
               end) fs l)
  | NChoice _ ts, VChoice i w =>
      VChoice i ((fix go (ts : list nty) (i : nat) : value :=
                    match ts, i with
                    | t :: _, O => byval t w
                    | _ :: ts, S i => go ts i
                    | [], _ => w
                    end) ts i)
  | NCall _ t, v => byval t v
  | _, v => v
  end.

(** ** The functions *)

Fixpoint init (t : nty) : option value :=
  match t with
  | NInt p _ cs => Some (VInt (init_int p cs))
  | NBool cs => Some (VBool (init_bool cs))
  | NEnum items cs => option_map VEnum (init_enum items cs)
  | NNull => Some VNull
  | NOid => Some (VOid [])              (* createObjectIdentifierInitFunc, 612-635 *)
  | NStr d cs => option_map VStr (init_str d cs)
  | NOct cs => option_map VOct (init_sized 0 cs)
  | NBit cs => option_map VBit (init_sized false cs)
  (* createSequenceOfInitFunc, 827-852: all maxSize.uper items are initialised,
     nCount = minSize.uper *)
  | NSeqOf cs t =>
      obind (size_ends (getSequenceOfUperRange cs)) (fun '(a, _) =>
      obind (init t) (fun v => Some (VSeqOf (repeat v (Z.to_nat a)))))
  (* createSequenceInitFunc, 973-1014 *)
  | NSeq _ fs =>
      option_map VSeq
        ((fix go (fs : list (nopt * nty)) : option (list (bool * option value)) :=
            match fs with
            | [] => Some []
            | (o, t) :: fs =>
                obind match o with
                      | NAlwaysAbsent => Some (false, None)
                      | NOptional (Some def) => Some (true, Some (byval t def))
                      | NOptional None | NRequired | NAlwaysPresent => option_map (fun v => (true, Some v)) (init t)
                      end (fun x => obind (go fs) (fun l => Some (x :: l)))
            end) fs)
  (* createChoiceInitFunc, 1180-1207: the first alternative *)
  | NChoice _ ts =>
      match ts with t :: _ => option_map (VChoice O) (init t) | [] => None end
  (* createReferenceType, 1257-1284: call of the function of the type assignment *)
  | NCall _ t => init t
  end.

(** The type as in ConSpec.v. *)
Definition fixed_of (o : option range) : option Z :=
  match size_ends o with Some (a, b) => fixed_size a b | None => None end.
Fixpoint cty_of (t : nty) : cty :=
  match t with
  | NInt p w cs => CPrim (map (AInt p w) cs)
  | NBool cs => CPrim (map ABool cs)
  | NEnum _ cs => CPrim (map AEnum cs)
  | NNull | NOid => CPrim []
  | NStr _ cs => CPrim (map AStr cs)
  | NOct cs => CPrim (map (AOct (fixed_of (getSizeableUperRange len cs))) cs)
  | NBit cs => CPrim (map (ABit (fixed_of (getSizeableUperRange len cs))) cs)
  | NSeqOf cs t => CSeqOf (fixed_of (getSequenceOfUperRange cs)) cs (cty_of t)
  | NSeq cs fs =>
      CSeq cs (map (fun f => (match fst f with NRequired => false | _ => true end, cty_of (snd f))) fs)
  | NChoice cs ts => CChoice cs (map cty_of ts)
  | NCall cs t => CRef cs (cty_of t)
  end.
