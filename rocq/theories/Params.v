(** Parameterized types (X.683) and how the compiler removes them. *)
From Coq Require Import List String Bool Arith ZArith.
Import ListNotations.
Local Open Scope string_scope.
Local Open Scope list_scope.

(** * Syntax, ParameterizedAsn1Ast.fs:57-222 *)
(** Asn1Value without locations; REAL, BIT STRING, OCTET STRING, NULL and OBJECT IDENTIFIER
    values, which are copied unchanged like integers, are left out.
    [ERef m n]: value [n] of module [m], or an item of an ENUMERATED. *)
Inductive pexp :=
| EInt (z : Z) | EBool (b : bool) | EStr (s : string)
| ERef (m n : string)
| EOf (l : list pexp)
| ESeq (l : list (string * pexp))
| ECh (n : string) (e : pexp).
(** NamedConstraintMark. *)
Inductive pmark := NoMark | MarkPresent | MarkAbsent | MarkOptional.
(** Asn1Constraint. [CFrom]: RangeConstraint_val_MAX, [CTo]: RangeConstraint_MIN_val. The
    flags say whether a bound is included. [CRoot]: (c, ...), [CRoot2]: (c, ..., d). *)
Inductive pcon :=
| CSingle (e : pexp)
| CRange (lo hi : pexp) (lo_in hi_in : bool)
| CFrom (lo : pexp) (lo_in : bool)
| CTo (hi : pexp) (hi_in : bool)
| CIncl (m T : string)
| CSize (c : pcon) | CAlpha (c : pcon)
| CUnion (c d : pcon) | CInter (c d : pcon) | CAll (c : pcon) | CExcept (c d : pcon)
| CRoot (c : pcon) | CRoot2 (c d : pcon)
| CWith (c : pcon)
| CWiths (l : list (string * pmark * option pcon)).
(** Types without parts. *)
Inductive pbase := BInt | BBool | BStr | BNull.
(** ContainedInOctOrBitString. *)
Inductive pbox := InOctets | InBits.
(** Asn1Optionality; AlwaysAbsent and AlwaysPresent are not written by users. *)
Inductive popt := Mandatory | Optional | Default (e : pexp).
(** Asn1Type (kind and constraints only), Asn1TypeKind, SequenceChild, the alternatives of a
    CHOICE and TemplateArgument. *)
Inductive ptype := PT (k : pkind) (cs : list pcon)
with pkind :=
| KBase (b : pbase)
| KEnum (items : list string)
| KOf (t : ptype)
| KSeq (l : list pchild)
| KChoice (l : list palt)
| KRef (m T : string) (box : option pbox) (args : list parg)
with pchild := Child (n : string) (o : popt) (t : ptype) | CompsOf (m T : string)
with palt := Alt (n : string) (t : ptype)
with parg := AType (t : ptype) | AVal (e : pexp) | AParam (n : string).
Definition kind (t : ptype) : pkind := let (k, _) := t in k.
Definition cons_of (t : ptype) : list pcon := let (_, cs) := t in cs.
(** TemplateParameter; the type of a value parameter is not used by the code modelled here. *)
Inductive pparam := PType (n : string) | PVal (n : string).
Definition pname (p : pparam) : string := match p with PType n | PVal n => n end.
(** TypeAssignment, and Asn1Module with its name; AstRoot. Value assignments keep their values. *)
Record tas := mktas { ta_name : string; ta_params : list pparam; ta_type : ptype }.
Definition grammar : Type := list (string * list tas).

Fixpoint assoc {A} (n : string) (l : list (string * A)) : option A :=
  match l with [] => None | (m, a) :: l => if String.eqb m n then Some a else assoc n l end.
Definition mem (n : string) (l : list string) : bool := existsb (String.eqb n) l.
(** getModuleByName and getTasByName, ParameterizedAsn1Ast.fs:235-244; None is a SemanticError. *)
Definition lookup (r : grammar) (m T : string) : option tas :=
  match assoc m r with Some l => find (fun a => String.eqb (ta_name a) T) l | None => None end.

(** * Results *)
(** [Raise]: SemanticError or BugErrorException. [Endless]: the fuel is used up; if this is so for
    every amount of fuel, the function does not return. *)
Inductive res (A : Type) := Done (a : A) | Raise | Endless.
Arguments Done {A} a.
Arguments Raise {A}.
Arguments Endless {A}.
Definition bind {A B} (x : res A) (f : A -> res B) : res B :=
  match x with Done a => f a | Raise => Raise | Endless => Endless end.
Section mapR.
Context {A B : Type} (f : A -> res B).
Fixpoint mapR (l : list A) : res (list B) :=
  match l with [] => Done [] | x :: l => bind (f x) (fun y => bind (mapR l) (fun r => Done (y :: r))) end.
End mapR.

(** GetActualType and TryGetActualType, ParameterizedAsn1Ast.fs:249-269. *)
Fixpoint actual (r : grammar) (fuel : nat) (t : ptype) : res ptype :=
  match kind t with
  | KRef m T _ _ =>
      match fuel with
      | O => Endless
      | S f => match lookup r m T with Some a => actual r f (ta_type a) | None => Raise end
      end
  | _ => Done t
  end.

(** * Copying, RemoveParameterizedTypes.fs:41-153 *)
(** [act]: GetActualType; [cur]: name of curModule; [old]: oldModName; [env]: namedArgs. *)
Section copy.
Variable act : ptype -> res ptype.
Variables cur old : string.
Variable env : list (string * parg).
(** CloneValue, lines 131-153. *)
Fixpoint clone_exp (t : option ptype) (e : pexp) : res pexp :=
  match e with
  | ERef m n =>
      match assoc n env with
      | Some (AVal v) => Done v
      | Some _ => Raise
      | None =>
          match t with
          | None => Done e
          | Some t => bind (act t) (fun a =>
              match kind a with
              | KEnum items => if String.eqb old m && mem n items then Done (ERef cur n) else Done e
              | _ => Done e
              end)
          end
      end
  | EOf l => bind (mapR (clone_exp None) l) (fun l' => Done (EOf l'))
  | ESeq l =>
      bind ((fix go (l : list (string * pexp)) : res (list (string * pexp)) :=
               match l with
               | [] => Done []
               | (n, x) :: l => bind (clone_exp None x) (fun x' => bind (go l) (fun l' => Done ((n, x') :: l')))
               end) l) (fun l' => Done (ESeq l'))
  | ECh n x => bind (clone_exp None x) (fun x' => Done (ECh n x'))
  | _ => Done e
  end.
(** CloneConstraint and CloneNamedConstraint, lines 103-129. For RootConstraint line 116 calls
    CloneConstraint with the very same arguments ([c] instead of [c1]), so it does not return. *)
Fixpoint clone_con (t : option ptype) (c : pcon) : res pcon :=
  match c with
  | CSingle e => bind (clone_exp t e) (fun e' => Done (CSingle e'))
  | CRange a b i j => bind (clone_exp t a) (fun a' => bind (clone_exp t b) (fun b' => Done (CRange a' b' i j)))
  | CFrom a i => bind (clone_exp t a) (fun a' => Done (CFrom a' i))
  | CTo b j => bind (clone_exp t b) (fun b' => Done (CTo b' j))
  | CIncl m T => Done (CIncl m T)
  | CSize c => bind (clone_con None c) (fun c' => Done (CSize c'))
  | CAlpha c => bind (clone_con None c) (fun c' => Done (CAlpha c'))
  | CUnion c d => bind (clone_con t c) (fun c' => bind (clone_con t d) (fun d' => Done (CUnion c' d')))
  | CInter c d => bind (clone_con t c) (fun c' => bind (clone_con t d) (fun d' => Done (CInter c' d')))
  | CAll c => bind (clone_con t c) (fun c' => Done (CAll c'))
  | CExcept c d => bind (clone_con t c) (fun c' => bind (clone_con t d) (fun d' => Done (CExcept c' d')))
  | CRoot _ => Endless
  | CRoot2 c d => bind (clone_con t c) (fun c' => bind (clone_con t d) (fun d' => Done (CRoot2 c' d')))
  | CWith c => bind (clone_con None c) (fun c' => Done (CWith c'))
  | CWiths l =>
      bind ((fix go (l : list (string * pmark * option pcon)) : res (list (string * pmark * option pcon)) :=
               match l with
               | [] => Done []
               | (n, m, None) :: l => bind (go l) (fun l' => Done ((n, m, None) :: l'))
               | (n, m, Some c) :: l => bind (clone_con None c) (fun c' => bind (go l) (fun l' => Done ((n, m, Some c') :: l')))
               end) l) (fun l' => Done (CWiths l'))
  end.
Definition clone_cons (t : ptype) (cs : list pcon) : res (list pcon) := mapR (clone_con (Some t)) cs.
(** CloneType, lines 41-101. [sr]: SpecializeRefType for module, name and arguments, with the
    arguments of the type being copied. Implicit imports are not modelled. *)
Variable sr : string -> string -> list parg -> res ptype.
Fixpoint clone_type (t : ptype) : res ptype :=
  match t with
  | PT k cs =>
      bind (clone_cons t cs) (fun cs' =>
      match k with
      | KSeq l =>
          bind ((fix go (l : list pchild) : res (list pchild) :=
                   match l with
                   | [] => Done []
                   | CompsOf m T :: l => bind (go l) (fun l' => Done (CompsOf m T :: l'))
                   | Child n o x :: l =>
                       bind (clone_type x) (fun x' =>
                       bind (match o with Default e => bind (clone_exp (Some x') e) (fun e' => Done (Default e')) | _ => Done o end)
                            (fun o' => bind (go l) (fun l' => Done (Child n o' x' :: l'))))
                   end) l) (fun l' => Done (PT (KSeq l') cs'))
      | KChoice l =>
          bind ((fix go (l : list palt) : res (list palt) :=
                   match l with
                   | [] => Done []
                   | Alt n x :: l => bind (clone_type x) (fun x' => bind (go l) (fun l' => Done (Alt n x' :: l')))
                   end) l) (fun l' => Done (PT (KChoice l') cs'))
      | KOf x => bind (clone_type x) (fun x' => Done (PT (KOf x') cs'))
      | KRef m T box [] =>
          match assoc T env with
          | Some (AType x) => bind (clone_cons x (cons_of x)) (fun xs => Done (PT (kind x) (xs ++ cs')))
          | Some _ => Raise
          | None => Done (PT k cs')
          end
      | KRef m T box args =>
          bind (sr m T args) (fun s => bind (clone_cons s (cons_of s)) (fun xs => Done (PT (kind s) (xs ++ cs'))))
      | _ => Done (PT k cs')
      end)
  end.
End copy.

(** SpecializeType, lines 155-200, without ACN; [sr]: SpecializeRefType without resolved parameters. *)
Definition specialize_type (r : grammar) (sr : string -> string -> list parg -> res ptype) (t : ptype) : res ptype :=
  match t with
  | PT (KRef m T box []) cs =>
      match lookup r m T with
      | None => Raise
      | Some a => match ta_params a with [] => Done t | _ => Raise end
      end
  | PT (KRef m T box args) cs => bind (sr m T args) (fun s => Done (PT (kind s) (cons_of s ++ cs)))
  | _ => Done t
  end.
(** getNameArg, lines 221-228. *)
Definition name_arg (pa : pparam * parg) : res (string * parg) :=
  match pa with
  | (PType n, AType t) => Done (n, AType t)
  | (PVal n, AVal v) => Done (n, AVal v)
  | _ => Raise
  end.
(** SpecializeRefType, lines 202-232. [env]: resolvedTeplateParams. *)
Fixpoint specialize_ref (r : grammar) (fuel : nat) (cur : string) (env : list (string * parg))
    (m T : string) (args : list parg) : res ptype :=
  match fuel with
  | O => Endless
  | S f =>
      match lookup r m T with
      | None => Raise
      | Some a =>
          bind (mapR (fun x =>
                        match x with
                        | AVal v => Done (AVal v)
                        | AType t => bind (specialize_type r (specialize_ref r f cur []) t) (fun t' => Done (AType t'))
                        | AParam n => match assoc n env with Some y => Done y | None => Raise end
                        end) args) (fun args' =>
          if (List.length (ta_params a) =? List.length args')%nat
          then bind (mapR name_arg (combine (ta_params a) args')) (fun named =>
               clone_type (actual r f) cur m named (specialize_ref r f cur named) (ta_type a))
          else Raise)
      end
  end.

(** * The grammar, lines 236-344 *)
(** DoAsn1Type, lines 236-275. *)
Fixpoint do_type (r : grammar) (fuel : nat) (cur : string) (t : ptype) : res ptype :=
  match t with
  | PT k cs =>
      match k with
      | KOf x => bind (do_type r fuel cur x) (fun x' => Done (PT (KOf x') cs))
      | KSeq l =>
          bind ((fix go (l : list pchild) : res (list pchild) :=
                   match l with
                   | [] => Done []
                   | CompsOf m T :: l => bind (go l) (fun l' => Done (CompsOf m T :: l'))
                   | Child n o x :: l => bind (do_type r fuel cur x) (fun x' => bind (go l) (fun l' => Done (Child n o x' :: l')))
                   end) l) (fun l' => Done (PT (KSeq l') cs))
      | KChoice l =>
          bind ((fix go (l : list palt) : res (list palt) :=
                   match l with
                   | [] => Done []
                   | Alt n x :: l => bind (do_type r fuel cur x) (fun x' => bind (go l) (fun l' => Done (Alt n x' :: l')))
                   end) l) (fun l' => Done (PT (KChoice l') cs))
      | KRef _ _ _ _ => specialize_type r (specialize_ref r fuel cur []) t
      | _ => Done t
      end
  end.
(** DoTypeAssignment and DoModule, lines 279-336: types with parameters are dropped. *)
Definition do_tas (r : grammar) (fuel : nat) (cur : string) (a : tas) : res tas :=
  bind (do_type r fuel cur (ta_type a)) (fun t => Done (mktas (ta_name a) [] t)).
Definition do_module (r : grammar) (fuel : nat) (md : string * list tas) : res (string * list tas) :=
  bind (mapR (do_tas r fuel (fst md)) (filter (fun a => match ta_params a with [] => true | _ => false end) (snd md)))
       (fun l => Done (fst md, l)).
(** DoWork, lines 338-344. *)
Definition do_grammar (r : grammar) (fuel : nat) : res grammar := mapR (do_module r fuel) r.

(** * Arguments as they are read, CreateAsn1AstFromAntlrTree.fs:440-458 *)
(** A type given as argument within a type with parameters [ps]: a reference to a parameter
    becomes its name. *)
Definition make_arg (ps : list pparam) (t : ptype) : parg :=
  match t with
  | PT (KRef m T box []) cs => if mem T (map pname ps) then AParam T else AType t
  | _ => AType t
  end.
(** createDefaultConstraintsForEnumeratedTypes, CreateAsn1AstFromAntlrTree.fs:96-114: the
    constraint given to an ENUMERATED of module [m]. *)
Definition default_con (m : string) (items : list string) : list pcon :=
  match items with
  | [] => []
  | x :: l => [fold_left (fun c n => CUnion c (CSingle (ERef m n))) l (CSingle (ERef m x))]
  end.
