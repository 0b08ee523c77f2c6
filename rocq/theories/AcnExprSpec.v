(** What a present-when expression should mean. *)
From Verif Require Import Base CExpr AcnExpr AcnExprSeq.
From Coq Require Import String Ascii.
Local Open Scope Z_scope.

Fixpoint all_chars (f : ascii -> bool) (s : string) : bool :=
  match s with EmptyString => true | String c s => f c && all_chars f s end.
Definition ident (s : string) : Prop :=
  match s with EmptyString => False | String c s => is_alpha c = true /\ all_chars is_alnum s = true end.
(** The format E19: digits, point, digits, E, sign, digits. *)
Definition digits (s : string) : Prop := all_chars is_digit s = true.
Definition real_text (s : string) : Prop :=
  exists a i f sg x, is_digit a = true /\ digits i /\ digits f /\ (sg = "+" \/ sg = "-")%char /\ digits x /\
    s = (String a i ++ "." ++ f ++ "E" ++ String sg x)%string.
(** What the grammar of acn.g yields: constants are not negative (INT, REAL), and no named
    constant is used. *)
Fixpoint plain (e : aexp) : Prop :=
  match e with
  | EInt n => 0 <= n
  | EConst _ => False
  | EReal t => real_text t
  | EBool _ | EField _ => True
  | ENot e | EMinus e => plain e
  | EBin _ e1 e2 => plain e1 /\ plain e2
  end.
(** C names of all components. *)
Fixpoint good_names (k : akind) : Prop :=
  match k with
  | ASeq l => (fix go (l : list (cinfo * akind)) : Prop := match l with [] => True | (c, k) :: l => ident (cback c) /\ good_names k /\ go l end) l
  | _ => True
  end.

(** The C expression with the structure of e; [f] gives the member path of a field. *)
Definition member (root : string) (l : list string) : cexp :=
  match l with
  | [] => CId root
  | n :: l => fold_left (fun e s => CMem false e s) l (CMem true (CId root) n)
  end.
Definition c_op (op : bop) : string :=
  match op with
  | OAdd => "+" | OSub => "-" | OMul => "*" | ODiv => "/" | OMod => "%"
  | OLe => "<=" | OLt => "<" | OGe => ">=" | OGt => ">" | OEq => "==" | ONe => "!="
  | OAnd => "&&" | OOr => "||"
  end.
Fixpoint tree_of (f : list string -> list string) (root : string) (e : aexp) : cexp :=
  match e with
  | EInt n => CNum (DecimalString.NilZero.string_of_int (Z.to_int n))
  | EConst s => CId s
  | EReal t => CNum t
  | EBool b => CId (if b then "true" else "false")
  | EField p => member root (f p)
  | ENot e => CUn "!" (tree_of f root e)
  | EMinus e => CUn "-" (tree_of f root e)
  | EBin op e1 e2 => CBin (c_op op) (tree_of f root e1) (tree_of f root e2)
  end.

(** The component that a path names: every name selects a component of the one before. *)
Fixpoint denotes (k : akind) (p : list string) (l : list string) (k' : akind) : Prop :=
  match p with
  | [] => l = [] /\ k' = k
  | x :: p =>
      match k with
      | ASeq s => exists c k1 l1, In (c, k1) s /\ cname c = x /\ l = cback c :: l1 /\ denotes k1 p l1 k'
      | _ => False
      end
  end.
Definition scalar (k : akind) : option etype :=
  match k with AInt _ _ => Some TyInt | AReal => Some TyReal | ABool => Some TyBool | _ => None end.

(** Meaning: integers are not bounded, && and || look at the right side only when needed, the
    quotient is rounded towards zero, nothing is divided by zero. *)
Inductive mval := MB (b : bool) | MZ (z : Z).
Definition arith_op (op : bop) (a b : Z) : option Z :=
  match op with
  | OAdd => Some (a + b) | OSub => Some (a - b) | OMul => Some (a * b)
  | ODiv => if b =? 0 then None else Some (Z.quot a b)
  | OMod => if b =? 0 then None else Some (Z.rem a b)
  | _ => None
  end.
Definition rel_op (op : bop) (a b : Z) : option bool :=
  match op with
  | OLe => Some (a <=? b) | OLt => Some (a <? b) | OGe => Some (b <=? a) | OGt => Some (b <? a)
  | OEq => Some (a =? b) | ONe => Some (negb (a =? b))
  | _ => None
  end.
Fixpoint meval (val : list string -> option mval) (e : aexp) : option mval :=
  match e with
  | EInt n => Some (MZ n)
  | EBool b => Some (MB b)
  | EField p => val p
  | EConst _ | EReal _ => None
  | ENot e => match meval val e with Some (MB b) => Some (MB (negb b)) | _ => None end
  | EMinus e => match meval val e with Some (MZ z) => Some (MZ (- z)) | _ => None end
  | EBin OAnd e1 e2 =>
      match meval val e1 with
      | Some (MB true) => match meval val e2 with Some (MB b) => Some (MB b) | _ => None end
      | Some (MB false) => Some (MB false)
      | _ => None
      end
  | EBin OOr e1 e2 =>
      match meval val e1 with
      | Some (MB false) => match meval val e2 with Some (MB b) => Some (MB b) | _ => None end
      | Some (MB true) => Some (MB true)
      | _ => None
      end
  | EBin op e1 e2 =>
      match meval val e1, meval val e2 with
      | Some (MZ a), Some (MZ b) =>
          match arith_op op a b, rel_op op a b with
          | Some z, _ => Some (MZ z)
          | None, Some r => Some (MB r)
          | None, None => None
          end
      | Some (MB a), Some (MB b) =>
          match op with OEq => Some (MB (Bool.eqb a b)) | ONe => Some (MB (negb (Bool.eqb a b))) | _ => None end
      | _, _ => None
      end
  end.
(** All integers computed on the way lie between lo and 2^31 - 1. *)
Fixpoint within (val : list string -> option mval) (lo : Z) (e : aexp) : Prop :=
  (forall z, meval val e = Some (MZ z) -> lo <= z < 2 ^ 31) /\
  match e with
  | ENot e | EMinus e => within val lo e
  | EBin OAnd e1 e2 => within val lo e1 /\ (meval val e1 = Some (MB true) -> within val lo e2)
  | EBin OOr e1 e2 => within val lo e1 /\ (meval val e1 = Some (MB false) -> within val lo e2)
  | EBin _ e1 e2 => within val lo e1 /\ within val lo e2
  | _ => True
  end.
(** Memory holds the values: INTEGER in its C type, BOOLEAN as 0 or 1 of type bool. The last part
    asks for signed C types (or ones narrower than int) where negative numbers occur. *)
Definition holds (seq : akind) (lo : Z) (m : mem) (root : string) (base : list string) (val : list string -> option mval)
    (f : list string -> list string) (p : list string) : Prop :=
  match val p with
  | None => True
  | Some (MB b) => exists l, denotes seq p l ABool /\ f p = base ++ l /\ l <> [] /\ m root (f p) = Some ((false, 8), if b then 1 else 0)
  | Some (MZ z) => exists l s w, denotes seq p l (AInt s w) /\ f p = base ++ l /\ l <> [] /\ m root (f p) = Some ((s, w), z) /\
      (w = 8 \/ w = 16 \/ w = 32 \/ w = 64) /\ (lo < 0 -> s = true \/ w < 32)
  end.

(** The member path that the compiler takes for a field. *)
Definition resolve (seq : children) (base : list string) (p : list string) : list string :=
  match back_path seq p with Some l => base ++ l | None => [] end.
(** All names of one SEQUENCE differ, at every depth. *)
Fixpoint distinct (k : akind) : Prop :=
  match k with
  | ASeq l => NoDup (map (fun c => cname (fst c)) l) /\
      (fix go (l : list (cinfo * akind)) : Prop := match l with [] => True | (_, k) :: l => distinct k /\ go l end) l
  | _ => True
  end.
(** * Values *)
Definition val_type (v : mval) : etype := match v with MB _ => TyBool | MZ _ => TyInt end.
Fixpoint no_division (e : aexp) : Prop :=
  match e with
  | EConst _ | EReal _ => False
  | ENot e | EMinus e => no_division e
  | EBin op e1 e2 => op <> ODiv /\ op <> OMod /\ no_division e1 /\ no_division e2
  | _ => True
  end.
Definition zval (v : mval) : Z := match v with MB b => if b then 1 else 0 | MZ z => z end.
Fixpoint fields_of (e : aexp) : list (list string) :=
  match e with
  | EField p => [p]
  | ENot e | EMinus e => fields_of e
  | EBin _ e1 e2 => fields_of e1 ++ fields_of e2
  | _ => []
  end.

(** * SEQUENCE *)
(** How the C compiler reads the text of e (C64_text). *)
Definition reading (seq : children) (e : aexp) : cexp := tree_of (resolve seq []) "pVal" e.
(** Every expression looks only at mandatory components that come earlier ([D]). *)
Fixpoint before (seq : children) (D : list string) (cs : list schild) : Prop :=
  match cs with
  | [] => True
  | c :: cs =>
      match cond c with
      | None => before seq (back c :: D) cs
      | Some e => (forall p, In p (fields_of e) -> exists n r, resolve seq [] p = n :: r /\ In n D) /\ before seq D cs
      end
  end.
(** exist.c is what the expression says. *)
Definition flags_ok (seq : children) (cs : list schild) (sv : sval) : Prop :=
  forall c e, In c cs -> cond c = Some e -> test seq sv (reading seq e) = Some (exist sv (back c)).
Definition same (cs : list schild) (a b : sval) : Prop :=
  forall c, In c cs ->
    match cond c with
    | None => forall r, fieldv a (back c :: r) = fieldv b (back c :: r)
    | Some _ => exist a (back c) = exist b (back c) /\
        (exist a (back c) = true -> forall r, fieldv a (back c :: r) = fieldv b (back c :: r))
    end.
(** The value of a field as the ASN.1 author sees it. *)
Definition value_of (seq : children) (sv : sval) (p : list string) : option mval :=
  match p with
  | [x] =>
      match find (fun c => String.eqb (cname (fst c)) x) seq with
      | Some (c, AInt _ _) => Some (MZ (fieldv sv [cback c]))
      | Some (c, ABool) => Some (MB (fieldv sv [cback c] =? 1))
      | _ => None
      end
  | _ => None
  end.
(** Widths of C types; BOOLEAN members hold 0 or 1; no unsigned int or long where negative
    numbers occur. *)
Definition struct_ok (seq : children) (lo : Z) (sv : sval) : Prop :=
  forall c k, In (c, k) seq ->
    match k with
    | AInt s w => (w = 8 \/ w = 16 \/ w = 32 \/ w = 64) /\ (lo < 0 -> s = true \/ w < 32)
    | ABool => fieldv sv [cback c] = 0 \/ fieldv sv [cback c] = 1
    | _ => True
    end.

(** * Exact conditions *)
(** The C type of the expression (6.3.1, 6.5). *)
Fixpoint c_type (ty : list string -> option cty) (e : aexp) : cty :=
  match e with
  | EInt n => if n <? 2 ^ 31 then cint else (true, 64)
  | EField p => match ty p with Some t => t | None => cint end
  | EMinus e => promote (c_type ty e)
  | EBin op e1 e2 =>
      match op with
      | OAdd | OSub | OMul | ODiv | OMod => usual (promote (c_type ty e1)) (promote (c_type ty e2))
      | _ => cint
      end
  | _ => cint
  end.
(** Every operation is done in a C type that holds its operands and its result (for %, also the
    quotient); constants are below 2^63. *)
Definition results (op : bop) (a b : Z) : list Z :=
  match op with
  | OAdd => [a + b] | OSub => [a - b] | OMul => [a * b] | ODiv => [Z.quot a b] | OMod => [Z.quot a b; Z.rem a b]
  | _ => []
  end.
Fixpoint fits (ty : list string -> option cty) (val : list string -> option mval) (e : aexp) : Prop :=
  match e with
  | EInt n => n < 2 ^ 63
  | ENot e => fits ty val e
  | EMinus e => fits ty val e /\ forall z, meval val e = Some (MZ z) -> in_ty (promote (c_type ty e)) (- z)
  | EBin OAnd e1 e2 => fits ty val e1 /\ (meval val e1 = Some (MB true) -> fits ty val e2)
  | EBin OOr e1 e2 => fits ty val e1 /\ (meval val e1 = Some (MB false) -> fits ty val e2)
  | EBin op e1 e2 => fits ty val e1 /\ fits ty val e2 /\
      forall a b, meval val e1 = Some (MZ a) -> meval val e2 = Some (MZ b) ->
        let t := usual (promote (c_type ty e1)) (promote (c_type ty e2)) in
        in_ty t a /\ in_ty t b /\ forall z, In z (results op a b) -> in_ty t z
  | _ => True
  end.
(** The C type of the member that a field names. *)
Definition type_of (seq : children) (p : list string) : option cty :=
  match p with
  | [x] =>
      match find (fun c => String.eqb (cname (fst c)) x) seq with
      | Some (_, AInt s w) => Some (s, w)
      | Some (_, ABool) => Some (false, 8)
      | _ => None
      end
  | _ => None
  end.
(** Widths of C types; each member holds a value of its type. *)
Definition stored (seq : children) (sv : sval) : Prop :=
  forall c k, In (c, k) seq ->
    match k with
    | AInt s w => (w = 8 \/ w = 16 \/ w = 32 \/ w = 64) /\ in_ty (s, w) (fieldv sv [cback c])
    | ABool => fieldv sv [cback c] = 0 \/ fieldv sv [cback c] = 1
    | _ => True
    end.

(** * Typing rules *)
(** Arithmetic: both INTEGER or both REAL. Comparison: numbers of any kind. == and !=: two of
    one type. *)
Inductive well_typed (field : list string -> etype -> Prop) : aexp -> etype -> Prop :=
| wt_int : forall n, well_typed field (EInt n) TyInt
| wt_const : forall s, well_typed field (EConst s) TyInt
| wt_real : forall s, well_typed field (EReal s) TyReal
| wt_bool : forall b, well_typed field (EBool b) TyBool
| wt_field : forall p t, field p t -> well_typed field (EField p) t
| wt_not : forall e, well_typed field e TyBool -> well_typed field (ENot e) TyBool
| wt_minus : forall e t, In t [TyInt; TyReal] -> well_typed field e t -> well_typed field (EMinus e) t
| wt_arith : forall op e1 e2 t, In op [OAdd; OSub; OMul; ODiv; OMod] -> In t [TyInt; TyReal] ->
    well_typed field e1 t -> well_typed field e2 t -> well_typed field (EBin op e1 e2) t
| wt_less : forall op e1 e2 t1 t2, In op [OLe; OLt; OGe; OGt] -> In t1 [TyInt; TyReal] -> In t2 [TyInt; TyReal] ->
    well_typed field e1 t1 -> well_typed field e2 t2 -> well_typed field (EBin op e1 e2) TyBool
| wt_equal : forall op e1 e2 t, In op [OEq; ONe] -> well_typed field e1 t -> well_typed field e2 t ->
    well_typed field (EBin op e1 e2) TyBool
| wt_logic : forall op e1 e2, In op [OAnd; OOr] -> well_typed field e1 TyBool -> well_typed field e2 TyBool ->
    well_typed field (EBin op e1 e2) TyBool.
