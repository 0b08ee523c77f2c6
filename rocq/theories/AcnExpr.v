(** ACN present-when expressions: type check, printing as C, and the generated code of
    a SEQUENCE whose optional components depend on them. *)
From Verif Require Import Base.
From Coq Require Import String Ascii.
From Coq Require DecimalString DecimalZ.
Local Open Scope Z_scope.

(** AcnExpression, AcnGenericTypes.fs:58-78, without source locations; the thirteen
    binary constructors are [EBin op]. [EReal]: the text that
    Value.ToString("E19") gives, floating point itself is not modelled. *)
Inductive bop := OAdd | OSub | OMul | ODiv | OMod | OLe | OLt | OGe | OGt | OEq | ONe | OAnd | OOr.
Inductive aexp :=
| EInt (n : Z)
| EConst (s : string)
| EReal (text : string)
| EBool (b : bool)
| EField (path : list string)
| ENot (e : aexp)
| EMinus (e : aexp)
| EBin (op : bop) (e1 e2 : aexp).

(** A component of a SEQUENCE: name, name in C, whether it is an ACN inserted field and
    whether it is OPTIONAL; INTEGER with signedness and width of the C type. *)
Record cinfo := mkci { cname : string; cback : string; cacn : bool; copt : bool }.
Inductive akind :=
| AInt (sgn : bool) (w : Z)
| AReal
| ABool
| ASeq (l : list (cinfo * akind))
| AOther.
Definition children := list (cinfo * akind).

(** ExpressionType, AcnGenericTypes.fs:151-160; NonBooleanExpression is unfolded. *)
Inductive etype := TyBool | TyInt | TyReal.
Definition etype_eqb (a b : etype) : bool :=
  match a, b with TyBool, TyBool | TyInt, TyInt | TyReal, TyReal => true | _, _ => false end.

(** getChildResult, CheckLongReferences.fs:359-378; None: an error is reported. *)
Fixpoint check_path (seq : children) (lp : list string) : option etype :=
  match lp with
  | [] => None
  | x1 :: xs =>
      match find (fun c => String.eqb (cname (fst c)) x1) seq with
      | None => None
      | Some (ch, k) =>
          if cacn ch then None else if copt ch then None else
          match k with
          | AInt _ _ => Some TyInt
          | AReal => Some TyReal
          | ABool => Some TyBool
          | ASeq s => if (1 <? List.length xs)%nat then check_path s xs else None
          | AOther => None
          end
      end
  end.

(** numericBinaryOperator, numericComparativeBinaryOperator, eqNeqOperator and
    andOrBinaryOperator, AcnGenericTypes.fs:175-227; messages left out. *)
Definition numericBinaryOperator (e1 e2 : option etype) : option etype :=
  match e1, e2 with
  | Some TyBool, _ | _, Some TyBool => None
  | Some net1, Some net2 => if etype_eqb net1 net2 then Some net1 else None
  | _, _ => None
  end.
Definition numericComparativeBinaryOperator (e1 e2 : option etype) : option etype :=
  match e1, e2 with
  | Some TyBool, _ | _, Some TyBool => None
  | Some _, Some _ => Some TyBool
  | _, _ => None
  end.
Definition eqNeqOperator (e1 e2 : option etype) : option etype :=
  match e1, e2 with
  | Some t1, Some t2 => if etype_eqb t1 t2 then Some TyBool else None
  | _, _ => None
  end.
Definition andOrBinaryOperator (e1 e2 : option etype) : option etype :=
  match e1, e2 with
  | Some TyBool, Some TyBool => Some TyBool
  | _, _ => None
  end.
(** validateAcnExpression, AcnGenericTypes.fs:174-260, folded with foldAcnExpression, 81-147.
    The caller, CheckLongReferences.fs:380-383, accepts every ValResultOK. *)
Fixpoint validateAcnExpression (seq : children) (e : aexp) : option etype :=
  match e with
  | EInt _ => Some TyInt
  | EConst _ => Some TyInt
  | EReal _ => Some TyReal
  | EBool _ => Some TyBool
  | EField lf => check_path seq lf
  | ENot e1 => match validateAcnExpression seq e1 with Some TyBool => Some TyBool | _ => None end
  | EMinus e1 => match validateAcnExpression seq e1 with Some TyBool => None | r => r end
  | EBin op e1 e2 =>
      let f := match op with
               | OAdd | OSub | OMul | ODiv | OMod => numericBinaryOperator
               | OLe | OLt | OGe | OGt => numericComparativeBinaryOperator
               | OEq | ONe => eqNeqOperator
               | OAnd | OOr => andOrBinaryOperator
               end in
      f (validateAcnExpression seq e1) (validateAcnExpression seq e2)
  end.

(** getChildResult, AcnExpression.fs:37-53: the C names of the components walked through;
    None: an exception. *)
Fixpoint back_path (seq : children) (lp : list string) : option (list string) :=
  match lp with
  | [] => None
  | x1 :: xs =>
      match find (fun c => String.eqb (cname (fst c)) x1) seq with
      | None => None
      | Some (ch, k) =>
          if cacn ch then None else
          match k with
          | AInt _ _ | AReal | ABool => Some [cback ch]
          | ASeq s => if (1 <? List.length xs)%nat then option_map (cons (cback ch)) (back_path s xs) else None
          | AOther => None
          end
      end
  end.
(** AccessPath.joined, Language.fs:465-466, for a parameter passed by pointer:
    pVal->a.b.c *)
Definition joined_tail (l : list string) : string := fold_right (fun n s => "." ++ n ++ s)%string ""%string l.
Definition joined (root : string) (l : list string) : string :=
  match l with
  | [] => root
  | n :: l => (root ++ "->" ++ n ++ joined_tail l)%string
  end.

(** The operators of C, LangGeneric_c.fs:187-193, and the priorities, AcnExpression.fs:66-80. *)
Definition op_text (op : bop) : string :=
  match op with
  | OAdd => "+" | OSub => "-" | OMul => "*" | ODiv => "/" | OMod => "%"
  | OLe => "<=" | OLt => "<" | OGe => ">=" | OGt => ">" | OEq => "==" | ONe => "!="
  | OAnd => "&&" | OOr => "||"
  end.
Definition op_prio (op : bop) : Z :=
  match op with
  | OAdd | OSub => 3 | OMul | ODiv | OMod => 2
  | OLe | OLt | OGe | OGt => 4 | OEq | ONe => 5
  | OAnd | OOr => 6
  end.
Definition paren (s : string) : string := ("(" ++ s ++ ")")%string.
(** printUnary and printBinary, AcnExpression.fs:30-33 *)
Definition printUnary (op : string) (ch : Z * string) (mine : Z) : Z * string :=
  (mine, if mine <=? fst ch then (op ++ "(" ++ snd ch ++ ")")%string else (op ++ snd ch)%string).
Definition printBinary (op : string) (e1 e2 : Z * string) (mine : Z) : Z * string :=
  (mine, ((if (mine <=? fst e1)%Z then paren (snd e1) else snd e1) ++ " " ++ op ++ " " ++
          (if (mine <=? fst e2)%Z then paren (snd e2) else snd e2))%string).
Definition dec_text (n : Z) : string := DecimalString.NilZero.string_of_int (Z.to_int n).
(** acnExpressionToBackendExpression, AcnExpression.fs:22-83: [root] and [base] give pSeq. *)
Fixpoint print_exp (seq : children) (root : string) (base : list string) (e : aexp) : option (Z * string) :=
  match e with
  | EInt n => Some (0, dec_text n)
  | EConst _ => Some (0, ""%string)
  | EReal text => Some (0, text)
  | EBool b => Some (0, if b then "true"%string else "false"%string)
  | EField lf => match back_path seq lf with Some l => Some (0, joined root (base ++ l)) | None => None end
  | ENot e1 => match print_exp seq root base e1 with Some r => Some (printUnary "!" r 1) | None => None end
  | EMinus e1 => match print_exp seq root base e1 with Some r => Some (printUnary "-" r 1) | None => None end
  | EBin op e1 e2 =>
      match print_exp seq root base e1, print_exp seq root base e2 with
      | Some r1, Some r2 => Some (printBinary (op_text op) r1 r2 (op_prio op))
      | _, _ => None
      end
  end.
Definition acnExpressionToBackendExpression (seq : children) (root : string) (base : list string) (e : aexp) : option string :=
  option_map snd (print_exp seq root base e).
