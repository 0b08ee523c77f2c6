(** What parameterized types mean (X.680, X.683), independently of how they are removed. *)
From Verif Require Import Params.
From Coq Require Import List String Ascii Bool ZArith.
Import ListNotations.
Local Open Scope string_scope.
Local Open Scope list_scope.

(** * Values *)
(** Components of a SEQUENCE value: given, absent OPTIONAL, absent with the DEFAULT value.
    [VBox]: a value contained in an OCTET STRING or BIT STRING. [VEnum items x]: item [x]
    of an ENUMERATED with these items. *)
Inductive sval :=
| VInt (z : Z) | VBool (b : bool) | VStr (s : string) | VNull
| VEnum (items : list string) (x : string)
| VList (l : list sval)
| VSeq (l : list (string * sfield))
| VCh (n : string) (v : sval)
| VBox (b : pbox) (v : sval)
with sfield := Given (v : sval) | Omitted | Defaulted (v : sval).
Definition sem : Type := sval -> Prop.
(** Meaning of an actual parameter: the values of a type, or a value. *)
Inductive sarg := SType (p : sem) | SVal (p : sem).
Definition senv : Type := list (string * sarg).
(** Meaning of all types: those of module [m] with name [T] and actual parameters; and of the
    named values of the modules. *)
Definition types : Type := string -> string -> list sarg -> sem.
Definition values : Type := string -> string -> sem.

Fixpoint item_of (v : sval) : option (list string * string) :=
  match v with VEnum items x => Some (items, x) | VBox _ v => item_of v | _ => None end.
Fixpoint chars (s : string) : list string := match s with EmptyString => [] | String c s => String c EmptyString :: chars s end.
Definition size_of (v : sval) : option Z :=
  match v with
  | VStr s => Some (Z.of_nat (String.length s))
  | VList l => Some (Z.of_nat (List.length l))
  | _ => None
  end.
(** Order of INTEGER values and of characters. *)
Definition code (v : sval) : option Z :=
  match v with VInt z => Some z | VStr (String c EmptyString) => Some (Z.of_nat (nat_of_ascii c)) | _ => None end.
Definition below (incl : bool) (a b : sval) : Prop :=
  exists x y, code a = Some x /\ code b = Some y /\ if incl then (x <= y)%Z else (x < y)%Z.
(** Value of a component of a SEQUENCE, of the alternative of a CHOICE. *)
Definition part (n : string) (v : sval) : option sval :=
  match v with
  | VSeq l => match assoc n l with Some (Given w) | Some (Defaulted w) => Some w | _ => None end
  | VCh m w => if String.eqb m n then Some w else None
  | _ => None
  end.

Section meaning.
Variable P : types.
Variable V : values.
Variable env : senv.

(** A reference is to a parameter of this name, if there is one (X.683 8.4). *)
Definition value_named (m n : string) : sem :=
  match assoc n env with Some (SVal p) => p | Some (SType _) => fun _ => False | None => V m n end.
Definition type_named (m T : string) : sem :=
  match assoc T env with Some (SType p) => p | Some (SVal _) => fun _ => False | None => P m T [] end.

(** [e] denotes [v]. A name that is an item of the ENUMERATED in question, and not a parameter,
    denotes the item. *)
Fixpoint denotes (e : pexp) (v : sval) {struct e} : Prop :=
  match e with
  | EInt z => v = VInt z
  | EBool b => v = VBool b
  | EStr s => v = VStr s
  | ERef m n =>
      match assoc n env, item_of v with
      | None, Some (items, x) => if mem n items then n = x else value_named m n v
      | _, _ => value_named m n v
      end
  | EOf l =>
      exists vs, v = VList vs /\
      (fix all l vs : Prop := match l, vs with
         | [], [] => True | e :: l, w :: vs => denotes e w /\ all l vs | _, _ => False end) l vs
  | ESeq l =>
      exists fs, v = VSeq fs /\
      (fix all (l : list (string * pexp)) (fs : list (string * sfield)) : Prop := match l, fs with
         | [], [] => True | (n, e) :: l, (n', Given w) :: fs => n = n' /\ denotes e w /\ all l fs | _, _ => False end) l fs
  | ECh n e => exists w, v = VCh n w /\ denotes e w
  end.

(** [v] satisfies the constraint. *)
Fixpoint sat (c : pcon) (v : sval) {struct c} : Prop :=
  match c with
  | CSingle e => denotes e v
  | CRange a b i j => exists x y, denotes a x /\ denotes b y /\ below i x v /\ below j v y
  | CFrom a i => exists x, denotes a x /\ below i x v
  | CTo b j => exists y, denotes b y /\ below j v y
  | CIncl m T => type_named m T v
  | CSize c => exists n, size_of v = Some n /\ sat c (VInt n)
  | CAlpha c => exists s, v = VStr s /\ forall x, In x (chars s) -> sat c (VStr x)
  | CUnion c d => sat c v \/ sat d v
  | CInter c d => sat c v /\ sat d v
  | CAll c => ~ sat c v
  | CExcept c d => sat c v /\ ~ sat d v
  | CRoot c => sat c v
  | CRoot2 c d => sat c v \/ sat d v
  | CWith c => exists l, v = VList l /\ forall x, In x l -> sat c x
  | CWiths l =>
      (fix all (l : list (string * pmark * option pcon)) : Prop :=
         match l with
         | [] => True
         | (n, k, oc) :: l =>
             match k with MarkPresent => part n v <> None | MarkAbsent => part n v = None | _ => True end /\
             match oc with Some c => forall w, part n v = Some w -> sat c w | None => True end /\ all l
         end) l
  end.

Definition base_has (b : pbase) (v : sval) : Prop :=
  match b, v with BInt, VInt _ | BBool, VBool _ | BStr, VStr _ | BNull, VNull => True | _, _ => False end.
Definition opt_has (o : popt) (p : sem) (f : sfield) : Prop :=
  match f with
  | Given v => p v
  | Omitted => o = Optional
  | Defaulted v => p v /\ exists e, o = Default e /\ denotes e v
  end.
Definition box_has (b : option pbox) (p : sem) (v : sval) : Prop :=
  match b with None => p v | Some b => exists w, v = VBox b w /\ p w end.
(** [v] is a value of the type. *)
Fixpoint has (t : ptype) (v : sval) {struct t} : Prop :=
  match t with
  | PT k cs =>
      match k with
      | KBase b => base_has b v
      | KEnum items => exists x, In x items /\ v = VEnum items x
      | KOf t => exists l, v = VList l /\ forall x, In x l -> has t x
      | KSeq l =>
          exists fs, v = VSeq fs /\
          (fix all (l : list pchild) (fs : list (string * sfield)) : Prop :=
             match l with
             | [] => fs = []
             | Child n o t :: l => match fs with (n', f) :: fs => n = n' /\ opt_has o (has t) f /\ all l fs | [] => False end
             | CompsOf m T :: l => exists a b, fs = a ++ b /\ type_named m T (VSeq a) /\ all l b
             end) l fs
      | KChoice l =>
          exists n w, v = VCh n w /\
          (fix any (l : list palt) : Prop := match l with [] => False | Alt n' t :: l => (n = n' /\ has t w) \/ any l end) l
      | KRef m T box args =>
          match args with
          | [] => box_has box (type_named m T) v
          | _ =>
              box_has box (P m T ((fix go (l : list parg) : list sarg :=
                                     match l with
                                     | [] => []
                                     | AType t :: l => SType (has t) :: go l
                                     | AVal e :: l => SVal (denotes e) :: go l
                                     | AParam n :: l => match assoc n env with Some a => a | None => SType (fun _ => False) end :: go l
                                     end) args)) v
          end
      end /\
      (fix all (cs : list pcon) : Prop := match cs with [] => True | c :: cs => sat c v /\ all cs end) cs
  end.
End meaning.

(** * Meaning of a grammar *)
Definition sarg_eq (a b : sarg) : Prop :=
  match a, b with SType p, SType q | SVal p, SVal q => forall v, p v <-> q v | _, _ => False end.
Definition suits (p : pparam) (a : sarg) : Prop :=
  match p, a with PType _, SType _ | PVal _, SVal _ => True | _, _ => False end.
(** [P] gives every type of the grammar the meaning it is assigned, for all actual parameters
    that suit its parameters; names of types are no more than that. *)
Record model (r : grammar) (P : types) (V : values) : Prop := mkmodel {
  m_ext : forall m T a b v, Forall2 sarg_eq a b -> P m T a v -> P m T b v;
  m_def : forall m T ta a v, lookup r m T = Some ta ->
    (P m T a v <-> Forall2 suits (ta_params ta) a /\ has P V (combine (map pname (ta_params ta)) a) (ta_type ta) v)
}.

(** * Grammars in which names are kept apart *)
Fixpoint exp_refs (e : pexp) : list string :=
  match e with
  | ERef _ n => [n]
  | EOf l => flat_map exp_refs l
  | ESeq l => flat_map (fun x => exp_refs (snd x)) l
  | ECh _ e => exp_refs e
  | _ => []
  end.
(** Values and types named in a constraint. *)
Fixpoint con_refs (c : pcon) : list string :=
  match c with
  | CSingle e | CFrom e _ | CTo e _ => exp_refs e
  | CRange a b _ _ => exp_refs a ++ exp_refs b
  | CIncl _ _ => []
  | CSize c | CAlpha c | CAll c | CRoot c | CWith c => con_refs c
  | CUnion c d | CInter c d | CExcept c d | CRoot2 c d => con_refs c ++ con_refs d
  | CWiths l => flat_map (fun x => match snd x with Some c => con_refs c | None => [] end) l
  end.
Fixpoint con_incl (c : pcon) : list string :=
  match c with
  | CSingle _ | CFrom _ _ | CTo _ _ | CRange _ _ _ _ => []
  | CIncl _ T => [T]
  | CSize c | CAlpha c | CAll c | CRoot c | CWith c => con_incl c
  | CUnion c d | CInter c d | CExcept c d | CRoot2 c d => con_incl c ++ con_incl d
  | CWiths l => flat_map (fun x => match snd x with Some c => con_incl c | None => [] end) l
  end.
Definition opt_refs (o : popt) : list string := match o with Default e => exp_refs e | _ => [] end.

(** Values named in a type, including its arguments. *)
Fixpoint val_refs (t : ptype) : list string :=
  match t with
  | PT k cs =>
      flat_map con_refs cs ++
      match k with
      | KBase _ | KEnum _ => []
      | KOf t => val_refs t
      | KSeq l => flat_map (fun c => match c with Child _ o t => opt_refs o ++ val_refs t | CompsOf _ _ => [] end) l
      | KChoice l => flat_map (fun c => match c with Alt _ t => val_refs t end) l
      | KRef _ _ _ args => flat_map (fun a => match a with AType t => val_refs t | AVal e => exp_refs e | AParam _ => [] end) args
      end
  end.
(** Types named in a type, including its arguments; with the parameters given as arguments. *)
Fixpoint type_refs (t : ptype) : list string :=
  match t with
  | PT k cs =>
      flat_map con_incl cs ++
      match k with
      | KBase _ | KEnum _ => []
      | KOf t => type_refs t
      | KSeq l => flat_map (fun c => match c with Child _ _ t => type_refs t | CompsOf _ T => [T] end) l
      | KChoice l => flat_map (fun c => match c with Alt _ t => type_refs t end) l
      | KRef _ T _ args => match args with [] => [T] | _ => [] end ++
          flat_map (fun a => match a with AType t => type_refs t | AVal e => [] | AParam n => [n] end) args
      end
  end.
(** No actual parameters anywhere. *)
Fixpoint plain (t : ptype) : Prop :=
  match t with
  | PT k cs =>
      match k with
      | KBase _ | KEnum _ => True
      | KOf t => plain t
      | KSeq l => (fix all l : Prop := match l with [] => True | Child _ _ t :: l => plain t /\ all l | _ :: l => all l end) l
      | KChoice l => (fix all l : Prop := match l with [] => True | Alt _ t :: l => plain t /\ all l end) l
      | KRef _ _ _ args => args = []
      end
  end.
Definition apart (l ns : list string) : Prop := forall n, In n l -> In n ns -> False.
(** A type within an assignment with the parameters [ps]; [N]: the names of the parameters of all
    types. Outside of actual parameters a value parameter may be named wherever a value may, a type
    parameter wherever a type may, except in an inclusion, COMPONENTS OF or CONTAINING. In an
    actual parameter no parameter may be named; only the whole of it may be one. An actual
    parameter that is a type has no actual parameters, or is [T {...}]. [T {...}] is not contained. *)
Fixpoint tidy (N ps : list string) (t : ptype) : Prop :=
  match t with
  | PT k cs =>
      (forall n, In n (flat_map con_refs cs) -> In n N -> In n ps) /\ apart (flat_map con_incl cs) ps /\
      match k with
      | KBase _ | KEnum _ => True
      | KOf t => tidy N ps t
      | KSeq l =>
          (fix all l : Prop := match l with
             | [] => True
             | Child _ o t :: l => (forall n, In n (opt_refs o) -> In n N -> In n ps) /\ tidy N ps t /\ all l
             | CompsOf _ T :: l => ~ In T ps /\ all l
             end) l
      | KChoice l => (fix all l : Prop := match l with [] => True | Alt _ t :: l => tidy N ps t /\ all l end) l
      | KRef _ T box args =>
          match args with
          | [] => In T ps -> box = None
          | _ =>
              box = None /\
              (fix all l : Prop := match l with
                 | [] => True
                 | AType t :: l =>
                     tidy N [] t /\ apart (val_refs t) N /\ apart (type_refs t) ps /\
                     (match t with PT (KRef _ _ _ (_ :: _)) _ => True | _ => plain t end) /\ all l
                 | AVal e :: l => apart (exp_refs e) N /\ all l
                 | AParam n :: l => In n ps /\ all l
                 end) args
          end
      end
  end.
Definition params_of (r : grammar) : list string :=
  flat_map (fun md : string * list tas => flat_map (fun a => map pname (ta_params a)) (snd md)) r.
(** Parameters have the names of parameters only, and are used as above. *)
Definition hygienic (r : grammar) : Prop :=
  (forall m T, In T (params_of r) -> lookup r m T = None) /\
  (forall md a, In md r -> In a (snd md) -> tidy (params_of r) (map pname (ta_params a)) (ta_type a)).
(** No module assigns a name twice. *)
Definition distinct (r : grammar) : Prop := forall m l, In (m, l) r -> NoDup (map ta_name l).
(** Types named in a type. *)
Fixpoint con_uses (c : pcon) : list (string * string) :=
  match c with
  | CSingle _ | CFrom _ _ | CTo _ _ | CRange _ _ _ _ => []
  | CIncl m T => [(m, T)]
  | CSize c | CAlpha c | CAll c | CRoot c | CWith c => con_uses c
  | CUnion c d | CInter c d | CExcept c d | CRoot2 c d => con_uses c ++ con_uses d
  | CWiths l => flat_map (fun x => match snd x with Some c => con_uses c | None => [] end) l
  end.
Fixpoint uses (t : ptype) : list (string * string) :=
  match t with
  | PT k cs =>
      flat_map con_uses cs ++
      match k with
      | KBase _ | KEnum _ => []
      | KOf t => uses t
      | KSeq l => flat_map (fun c => match c with Child _ _ t => uses t | CompsOf m T => [(m, T)] end) l
      | KChoice l => flat_map (fun c => match c with Alt _ t => uses t end) l
      | KRef m T _ args => (m, T) :: flat_map (fun a => match a with AType t => uses t | _ => [] end) args
      end
  end.
(** No type is defined in terms of itself: every type that is named has a lower rank. *)
Definition acyclic (r : grammar) : Prop :=
  exists rank : string -> string -> nat, forall m T ta m' T', lookup r m T = Some ta -> In (m', T') (uses (ta_type ta)) ->
    lookup r m' T' <> None -> rank m' T' < rank m T.
(** * Extensible constraints *)
(** No constraint of the form (c, ...). *)
Fixpoint con_closed (c : pcon) : Prop :=
  match c with
  | CSingle _ | CFrom _ _ | CTo _ _ | CRange _ _ _ _ | CIncl _ _ => True
  | CRoot _ => False
  | CSize c | CAlpha c | CAll c | CWith c => con_closed c
  | CUnion c d | CInter c d | CExcept c d | CRoot2 c d => con_closed c /\ con_closed d
  | CWiths l => (fix all l : Prop := match l with [] => True | (_, _, Some c) :: l => con_closed c /\ all l | _ :: l => all l end) l
  end.
Fixpoint type_closed (t : ptype) : Prop :=
  match t with
  | PT k cs =>
      Forall con_closed cs /\
      match k with
      | KBase _ | KEnum _ => True
      | KOf t => type_closed t
      | KSeq l => (fix all l : Prop := match l with [] => True | Child _ _ t :: l => type_closed t /\ all l | _ :: l => all l end) l
      | KChoice l => (fix all l : Prop := match l with [] => True | Alt _ t :: l => type_closed t /\ all l end) l
      | KRef _ _ _ args => (fix all l : Prop := match l with [] => True | AType t :: l => type_closed t /\ all l | _ :: l => all l end) args
      end
  end.
Definition no_extensions (r : grammar) : Prop := forall md a, In md r -> In a (snd md) -> type_closed (ta_type a).
