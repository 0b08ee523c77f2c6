(** The functions _IsConstraintValid generated by BackendAst/DastValidate2.fs with
    the C templates of StgC/isvalid_c.stg. A piece of generated code is modelled
    by what it does: an expression by its value for the value v that is checked,
    a statement by the final value of the local variable ret as a function of v
    and of its initial value. The error code is left out, and so are the types
    REAL (bounds printed in decimal), OBJECT IDENTIFIER and TIME. Expressions are
    printed with parentheses (isvalid_c.stg:110-121), so the operators apply as
    in the tree. The number of elements of a value (nCount) does not exceed the
    capacity of its array. *)
From Verif Require Import Base Bits UperTypes ConSpec.

(** ValidationCodeBlock, DAst.fs *)
Inductive vcb (V : Type) :=
| VTrue
| VFalse
| VExp (b : V -> bool)
| VStat (f : V -> bool -> bool).
Arguments VTrue {V}. Arguments VFalse {V}. Arguments VExp {V}. Arguments VStat {V}.

(** ** Combining code, DastValidate2.fs:55-157 *)

Section Combine.
  Context {V : Type}.

(** ValidationCodeBlock_OR; StatementOrStatement, ExpressionOrStatement,
    StatementOrExpression, ExpOr: isvalid_c.stg:116, 130-150 *)
Definition vor (a b : vcb V) : vcb V :=
  match a, b with
  | VTrue, _ => VTrue
  | _, VTrue => VTrue
  | VFalse, _ => b
  | _, VFalse => a
  | VExp x, VExp y => VExp (fun v => x v || y v)
  | VExp x, VStat g => VStat (fun v _ => let r := x v in if negb r then g v r else r)
  | VStat f, VExp y => VStat (fun v r0 => let r := f v r0 in if negb r then y v else r)
  | VStat f, VStat g => VStat (fun v r0 => let r := f v r0 in if negb r then g v r else r)
  end.
(** ValidationCodeBlock_AND; isvalid_c.stg:117, 152-171 *)
Definition vand (a b : vcb V) : vcb V :=
  match a, b with
  | VTrue, _ => b
  | _, VTrue => a
  | VFalse, _ => VFalse
  | _, VFalse => VFalse
  | VExp x, VExp y => VExp (fun v => x v && y v)
  | VExp x, VStat g => VStat (fun v _ => let r := x v in if r then g v r else r)
  | VStat f, VExp y => VStat (fun v r0 => let r := f v r0 in if r then y v else r)
  | VStat f, VStat g => VStat (fun v r0 => let r := f v r0 in if r then g v r else r)
  end.
(** ValidationCodeBlock_Not; ExpNot, StatementNot: isvalid_c.stg:121, 173-176 *)
Definition vnot (a : vcb V) : vcb V :=
  match a with
  | VTrue => VFalse
  | VFalse => VTrue
  | VExp x => VExp (fun v => negb (x v))
  | VStat f => VStat (fun v r0 => negb (f v r0))
  end.
(** ValidationCodeBlock_Except; isvalid_c.stg:178-199 *)
Definition vexcept (a b : vcb V) : vcb V :=
  match a, b with
  | _, VTrue => VFalse
  | VTrue, _ => vnot b
  | VFalse, _ => VFalse
  | _, VFalse => a
  | VExp x, VExp y => VExp (fun v => x v && negb (y v))
  | VExp x, VStat g => VStat (fun v _ => let r := x v in if r then negb (g v r) else r)
  | VStat f, VExp y => VStat (fun v r0 => let r := f v r0 in if r then negb (y v) else r)
  | VStat f, VStat g => VStat (fun v r0 => let r := f v r0 in if r then negb (g v r) else r)
  end.
(** nestItems_ret, FrontEndAst/DAstUtilFunctions.fs:1033-1034, with JoinTwoIfFirstOk,
    isvalid_c.stg:15-20 *)
Fixpoint nest (l : list (V -> bool -> bool)) : option (V -> bool -> bool) :=
  match l with
  | [] => None
  | f :: l =>
      Some (match nest l with
            | None => f
            | Some g => fun v r0 => let r := f v r0 in if r then g v r else r
            end)
  end.
(** ValidationCodeBlock_Multiple_And, DastValidate2.fs:84-103 *)
Definition stat_of (a : vcb V) : list (V -> bool -> bool) :=
  match a with
  | VExp x => [fun v _ => x v]        (* ret = x; *)
  | VStat f => [f]
  | VTrue | VFalse => []
  end.
Definition is_vfalse (a : vcb V) : bool := match a with VFalse => true | _ => false end.
Definition vmulti (l : list (vcb V)) : vcb V :=
  if existsb is_vfalse l then VFalse
  else match nest (flat_map stat_of l) with
       | Some f => VStat f
       | None => VTrue
       end.
(** ret after the code; ExpressionToStatement, isvalid_c.stg:126-128, and
    convertVCBToStatementAndAssignedErrCode, DastValidate2.fs:116-125 *)
Definition vrun (a : vcb V) (v : V) (r : bool) : bool :=
  match a with
  | VTrue => true
  | VFalse => false
  | VExp x => x v
  | VStat f => f v r
  end.

(** The folds: con_or, con_and, con_not, con_except, con_root, con_root2,
    DastValidate2.fs:152-157 *)
  Section Vcon.
  Context {A : Type} (f : A -> vcb V).
  Fixpoint vcon (c : con A) : vcb V :=
    match c with
    | Union c1 c2 => vor (vcon c1) (vcon c2)
    | Inter c1 c2 => vand (vcon c1) (vcon c2)
    | AllExcept c => vnot (vcon c)
    | Except c1 c2 => vexcept (vcon c1) (vcon c2)
    | Root c => vcon c
    | Root2 c1 c2 => vor (vcon c1) (vcon c2)
    | Atom a => f a
    end.
  End Vcon.
End Combine.

(** Code for a component, in terms of the enclosing value. *)
Definition vvia {V W} (get : V -> W) (a : vcb W) : vcb V :=
  match a with
  | VTrue => VTrue
  | VFalse => VFalse
  | VExp x => VExp (fun v => x (get v))
  | VStat f => VStat (fun v => f (get v))
  end.

(** ** Integers *)

(** intValueToString, StgC/LangGeneric_c.fs:73-90: the value of the C constant
    expression in a comparison with a variable of the type. For unsigned types
    it is printed with the suffix UL, so a negative number is negated in
    unsigned long (64 bits). The constants of signed types must fit 64 bits. *)
Definition lit (p : bool) (v : Z) : Z := if p then v mod 2 ^ 64 else v.
(** IntegerClass.Min, Max *)
Definition class_min (p : bool) (w : Z) : Z := if p then 0 else - 2 ^ (w - 1).
Definition class_max (p : bool) (w : Z) : Z := if p then 2 ^ w - 1 else 2 ^ (w - 1) - 1.

(** Lte, DastValidate2.fs:146-149 *)
Definition lte (incl : bool) (a b : Z) : bool := if incl then a <=? b else a <? b.
(** con_rangeConstraint_val_MAX, con_rangeConstraint_MIN_val, DastValidate2.fs:160-172 *)
Definition v_ge (mn : Z) (pr : Z -> Z) (v1 : Z) (incl : bool) : vcb Z :=
  if v1 <? mn then VTrue
  else if (v1 =? mn) && incl then VTrue
  else VExp (fun x => lte incl (pr v1) x).
Definition v_le (mx : Z) (pr : Z -> Z) (v1 : Z) (incl : bool) : vcb Z :=
  if mx <? v1 then VTrue
  else if (v1 =? mx) && incl then VTrue
  else VExp (fun x => lte incl x (pr v1)).
Definition v_atom (mn mx : Z) (pr : Z -> Z) (a : atom) : vcb Z :=
  match a with
  | Val v => VExp (fun x => x =? pr v)
  | Rng a b ai bi => vand (v_ge mn pr a ai) (v_le mx pr b bi)
  | Ge a ai => v_ge mn pr a ai
  | Le b bi => v_le mx pr b bi
  end.
(** integerConstraint2ValidationCodeBlock, DastValidate2.fs:257-270 *)
Definition v_int (p : bool) (w : Z) (c : icon) : vcb Z :=
  vcon (v_atom (class_min p w) (class_max p w) (lit p)) c.
(** foldSizeRangeTypeConstraint, DastValidate2.fs:182-193: UInt32 constants
    compared with an int, or with strlen() *)
Definition v_size (c : icon) : vcb Z :=
  vcon (v_atom 0 (2 ^ 32 - 1) (fun v => v)) c.

(** ** Strings *)

(** strchr(s, ch) != NULL: the terminator is found too. *)
Definition strchr (s : list Z) (ch : Z) : bool := existsb (Z.eqb ch) s || (ch =? 0).
(** foldRangeCharCon, DastValidate2.fs:224-234 *)
Definition v_chatom (a : chatom) : vcb Z :=
  match a with
  | Chars s => VExp (strchr s)
  | ChRng a b ai bi => VExp (fun ch => lte ai a ch && lte bi ch b)
  | ChGe a ai => VExp (fun ch => lte ai a ch)
  | ChLe b bi => VExp (fun ch => lte bi ch b)
  end.
(** alphaBody, DastValidate2.fs:240-246; no statements arise. *)
Definition v_char (c : chcon) (ch : Z) : bool := vrun (vcon v_chatom c) ch true.
(** Print_AlphabetCheckFunc, isvalid_c.stg:210-222; the argument up to its NUL *)
Fixpoint alpha_loop (c : chcon) (s : list Z) (r : bool) : bool :=
  match s with
  | [] => r
  | ch :: s => if r then alpha_loop c s (r && v_char c ch) else r
  end.
(** ia5StringConstraint2ValidationCodeBlock, DastValidate2.fs:206-255 *)
Definition v_stratom (a : stratom) : vcb (list Z) :=
  match a with
  | StrVal t => VExp (fun s => eqs s t)          (* strcmp(s, t) == 0 *)
  | StrSize c => vvia len (v_size c)             (* strlen(s) *)
  | StrFrom c => VExp (fun s => alpha_loop c s true)
  end.
Definition v_str (c : scon) : vcb (list Z) := vcon v_stratom c.

(** ** Sized types: foldSizableConstraint, DastValidate2.fs:196-204 *)

(** Of a type of fixed size only single values are checked. *)
Definition v_sized {V} (fixed : option Z) (c : icon) (lenv : V -> Z) : vcb V :=
  match fixed with None => vvia lenv (v_size c) | Some _ => VTrue end.
(** octetStringConstraint2ValidationCodeBlock, bitStringConstraint2ValidationCodeBlock,
    DastValidate2.fs:350-376: OctetString_equal, BitString_equal *)
Definition v_szatom {V} (eqv : V -> V -> bool) (lenv : V -> Z) (fixed : option Z) (a : szatom V) : vcb V :=
  match a with
  | SzVal v => VExp (fun x => eqv x v)
  | Size c => v_sized fixed c lenv
  end.

(** ** Components *)

(** StatementForLoop and sequenceOf2, isvalid_c.stg:201-206, 344-349: ret is not
    set before the loop. *)
Fixpoint for_loop {W} (f : W -> bool -> bool) (l : list W) (r : bool) : bool :=
  match l with
  | [] => r
  | x :: l => if r then for_loop f l (f x r) else r
  end.
(** WITH COMPONENT, DastValidate2.fs:536-550 *)
Definition v_loop {W} (a : vcb W) : vcb (list W) :=
  match a with
  | VTrue => VTrue
  | _ => VStat (for_loop (vrun a))
  end.
(** if (cond) { .. }: Sequence_OptionalChild, Choice_OptionalChild,
    isvalid_c.stg:274-278, 297-301; DastValidate2.fs:416-428, 486-496 *)
Definition v_when {V} (cond : V -> bool) (a : vcb V) : vcb V :=
  match a with
  | VTrue => VTrue
  | _ => VStat (fun v r => if cond v then vrun a v r else r)
  end.
(** exist.x == 1, exist.x == 0; kind == x, kind != x:
    DastValidate2.fs:440-449, 498-507 *)
Definition v_mark {V} (present : V -> bool) (m : mark) : list (vcb V) :=
  match m with
  | NoMark | MarkOptional => []
  | MarkAbsent => [VExp (fun v => negb (present v))]
  | MarkPresent => [VExp present]
  end.
(** The member of the C structure; for a component that is not present it is
    not read by the generated code. *)
Definition get_field (i : nat) (l : list (bool * option value)) : value :=
  match field l i with (_, Some v) => v | _ => VNull end.
Definition exist (i : nat) (l : list (bool * option value)) : bool := fst (field l i).

(** The members of the C type for a value. *)
Definition as_int (v : value) : Z := match v with VInt z | VEnum z => z | _ => 0 end.
Definition as_bool (v : value) : bool := match v with VBool b => b | _ => false end.
Definition as_bytes (v : value) : list Z := match v with VOct l | VStr l => l | _ => [] end.
Definition as_bits (v : value) : list bool := match v with VBit l => l | _ => [] end.
Definition as_elems (v : value) : list value := match v with VSeqOf l => l | _ => [] end.
Definition as_fields (v : value) : list (bool * option value) := match v with VSeq l => l | _ => [] end.
Definition as_choice (v : value) : nat * value := match v with VChoice i w => (i, w) | _ => (O, VNull) end.

(** foldGenericCon, DastValidate2.fs:175-179 *)
Definition v_eq {V} (eqb : V -> V -> bool) (c : con V) : vcb V :=
  vcon (fun v => VExp (fun x => eqb x v)) c.

(** anyConstraint2ValidationCodeBlock, DastValidate2.fs:379-398, and
    sequenceConstraint2ValidationCodeBlock (400-462),
    choiceConstraint2ValidationCodeBlock (467-520),
    sequenceOfConstraint2ValidationCodeBlock (522-552). Single values of
    SEQUENCE, SEQUENCE OF and CHOICE are not checked. *)
Fixpoint v_any (a : acon) : vcb value :=
  match a with
  | AInt p w c => vvia as_int (v_int p w c)
  | ABool c => vvia as_bool (v_eq Bool.eqb c)
  | AEnum c => vvia as_int (v_eq Z.eqb c)
  | AStr c => vvia as_bytes (v_str c)
  | AOct fixed c => vvia as_bytes (vcon (v_szatom eqs len fixed) c)
  | ABit fixed c => vvia as_bits (vcon (v_szatom (list_eqb Bool.eqb) len fixed) c)
  | ASeqOf fixed c => vvia as_elems (vcon (v_sq fixed) c)
  | ASeq c => vvia as_fields (vcon v_sr c)
  | AChoice c => vvia as_choice (vcon v_chc c)
  end
with v_sq (fixed : option Z) (a : sqatom) : vcb (list value) :=
  match a with
  | SqVal v => VTrue
  | SqSize c => v_sized fixed c len
  | SqWith a => v_loop (v_any a)
  end
with v_sr (a : sratom) : vcb (list (bool * option value)) :=
  match a with
  | SrVal v => VTrue
  | SrWith ns absent =>
      vmulti (flat_map (fun n =>
        let 'Named i opt c m := n in
        let check := match c with Some c => vvia (get_field i) (v_any c) | None => VTrue end in
        v_mark (exist i) m ++ [if opt then v_when (exist i) check else check]) ns)
  end
with v_chc (a : chcatom) : vcb (nat * value) :=
  match a with
  | ChVal v => VTrue
  | ChWith ns =>
      vmulti (flat_map (fun n =>
        let 'Named i _ c m := n in
        let check := match c with Some c => vvia snd (v_any c) | None => VTrue end in
        v_mark (fun x => Nat.eqb (fst x) i) m ++ [v_when (fun x => Nat.eqb (fst x) i) check]) ns)
  end.

(** ** Functions of types *)

(** ValidationStatement: None for ValidationStatementTrue (ret = TRUE). The body
    of the function of a type, createIsValidFunction and below,
    DastValidate2.fs:592-1066; isvalid_c.stg:90-103. *)
Definition stmt (V : Type) := option (V -> bool -> bool).
(** funcBody, DastValidate2.fs:640-642; convertMultipleVCBsToStatementAndSetErrorCode, 728-743 *)
Definition to_stmt {V} (a : vcb V) : stmt V :=
  match a with VTrue => None | _ => Some (vrun a) end.
Definition lst {V} (s : stmt V) : list (V -> bool -> bool) :=
  match s with Some f => [f] | None => [] end.
Definition srun {V} (s : stmt V) (v : V) (r : bool) : bool :=
  match s with Some f => f v r | None => true end.
Definition on {V W} (get : V -> W) (f : W -> bool -> bool) : V -> bool -> bool := fun v => f (get v).

Fixpoint body (t : cty) : stmt value :=
  match t with
  (* createIntegerFunction .. createEnumeratedFunction, 644-726; not the search in a table of 720-726 *)
  | CPrim cs => to_stmt (vmulti (map v_any cs))
  (* createSequenceOfFunction, 745-788 *)
  | CSeqOf fixed cs t =>
      nest (lst (to_stmt (vvia as_elems (vmulti (map (vcon (v_sq fixed)) cs)))) ++
            match body t with
            | None => []
            | Some f => [on as_elems (for_loop f)]
            end)
  (* createSequenceFunction, 791-861 *)
  | CSeq cs fs =>
      nest (lst (nest
              ((fix go (i : nat) (fs : list (bool * cty)) : list (value -> bool -> bool) :=
                  match fs with
                  | [] => []
                  | (opt, t) :: fs =>
                      match body t with
                      | None => []
                      | Some f =>
                          [fun v r => if negb opt || exist i (as_fields v)
                                      then f (get_field i (as_fields v)) r else r]
                      end ++ go (S i) fs
                  end) O fs)) ++
            lst (to_stmt (vvia as_fields (vmulti (map (vcon v_sr) cs)))))
  (* createChoiceFunction, 863-948 *)
  | CChoice cs ts =>
      nest (lst (to_stmt (vvia as_choice (vmulti (map (vcon v_chc) cs)))) ++
            [fun v r =>
               match nth_error (map body ts) (fst (as_choice v)) with
               | Some s => srun s (snd (as_choice v)) r
               | None => false
               end])
  (* createReferenceTypeFunction, 951-1066: call of the function of t *)
  | CRef cs t =>
      nest ((fun v _ => srun (body t) v true) ::
            lst (to_stmt (vmulti (map v_any cs))))
  end.
(** T_IsConstraintValid: flag ret = TRUE; body; return ret *)
Definition isConstraintValid (t : cty) (v : value) : bool := srun (body t) v true.
