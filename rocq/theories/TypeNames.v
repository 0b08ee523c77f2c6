(** Names of the C types: FrontEndAst/FE_TypeDefinition.fs for C (LangBasic_c,
    StgC/LangGeneric_c.fs:42-48: case sensitive, OnTypeNameConflictTryAppendModName). The maps are
    keyed by language and something else in the code; here by the latter, for C. *)
From Coq Require Import String Ascii List Bool Arith ZArith.
From Coq Require Decimal DecimalString.
From Verif Require Import Names AcnExpr.
Import ListNotations.
Local Open Scope string_scope.
Local Open Scope list_scope.
Local Open Scope Z_scope.

(** Int32.TryParse, of a text without blanks and plus signs (names have none). *)
Definition int32 (z : Z) : bool := (- 2 ^ 31 <=? z) && (z <? 2 ^ 31).
Definition try_parse (s : string) : option Z :=
  match DecimalString.NilZero.int_of_string s with
  | Some d => if int32 (Z.of_int d) then Some (Z.of_int d) else None
  | None => None
  end.
(** [num+1] of the code is an unchecked Int32. *)
Definition wrap32 (z : Z) : Z := (z + 2 ^ 31) mod 2 ^ 32 - 2 ^ 31.
(** What is before and what is after the last underscore: the last part of Split('_') and the
    other ones joined again. *)
Fixpoint split_last (s : string) : option (string * string) :=
  match s with
  | EmptyString => None
  | String c s' =>
      match split_last s' with
      | Some (b, l) => Some (String c b, l)
      | None => if (c =? "_")%char then Some (EmptyString, s') else None
      end
  end.
(** getNextCount, FE_TypeDefinition.fs:17-24. *)
Definition next_count (old : string) : string :=
  match split_last old with
  | None => (old ++ "_1")%string
  | Some (b, cur) =>
      match try_parse cur with
      | Some n => (b ++ "_" ++ dec_text (wrap32 (n + 1)))%string
      | None => (old ++ "_1")%string
      end
  end.

(** allocatedTypeNames: a name, and the program units that have it. *)
Definition names := list (string * list string).
Fixpoint lookup {A} (k : string) (m : list (string * A)) : option A :=
  match m with [] => None | (k', v) :: m => if String.eqb k k' then Some v else lookup k m end.
(** addAllocatedTypeNames, FE_TypeDefinition.fs:26-35; Map.Add: the new entry hides the old one. *)
Definition allocate (m : names) (unit name : string) : names :=
  match lookup name m with
  | None => (name, [unit]) :: m
  | Some us => (name, unit :: us) :: m
  end.
(** s.Substring(n) *)
Fixpoint drop (n : nat) (s : string) : string :=
  match n, s with S n, String _ s => drop n s | _, _ => s end.
(** isKeyword, LangGeneric_c.fs:47. *)
Definition keyword (s : string) : bool := existsb (String.eqb s) c_keywords.
(** getValidTypeDefname, FE_TypeDefinition.fs:37-60: [None] when it has not returned after [fuel]
    calls. StartsWith of ordinary characters. *)
Fixpoint valid_name (fuel : nat) (tp : string) (m : names) (unit name : string) : option string :=
  match fuel with
  | O => None
  | S n =>
      let name := if keyword name then next_count name else name in
      match lookup name m with
      | None => Some name
      | Some us =>
          if existsb (String.eqb unit) us then valid_name n tp m unit (next_count name)
          else if prefix tp name
          then valid_name n tp m unit (tp ++ unit ++ "_" ++ drop (String.length tp) name)%string
          else valid_name n tp m unit (unit ++ "_" ++ name)%string
      end
  end.

(** An exception, or no return within the fuel. *)
Inductive out (A : Type) := Ok (a : A) | Raise | Loop.
Arguments Ok {A} a. Arguments Raise {A}. Arguments Loop {A}.
Definition bind {A B} (o : out A) (f : A -> out B) : out B :=
  match o with Ok a => f a | Raise => Raise | Loop => Loop end.

(** reserveTypeDefinitionName, FE_TypeDefinition.fs:16-73. *)
Definition reserve (fuel : nat) (tp : string) (m : names) (unit name : string) : out (string * names) :=
  match valid_name fuel tp m unit name with
  | Some n => Ok (n, allocate m unit n)
  | None => Loop
  end.

(** ScopeNode, CommonTypes.fs:424-431; a ReferenceToType is a list of them. *)
Inductive node :=
| MD (s : string) | TA (s : string) | VA (s : string)
| SEQ_CHILD (s : string) (opt : bool) | CH_CHILD (s present cname : string) | PRM (s : string) | SQF.
Definition ref := list node.
Definition node_eq (a b : node) : {a = b} + {a <> b}.
Proof. decide equality; try apply string_dec. apply bool_dec. Defined.
Definition ref_eq : forall a b : ref, {a = b} + {a <> b} := list_eq_dec node_eq.

(** The six register functions differ in the class of definition and in the further names that
    they reserve (used by some target languages), in this order. *)
Inductive class := Primitive | Stringlike | Sizeable | Sequence | Choice | Enumerated.
Definition class_eq (a b : class) : {a = b} + {a <> b}.
Proof. decide equality. Defined.
Definition suffixes (c : class) : list string :=
  match c with
  | Primitive => []
  | Stringlike => ["_alpha_index"; "_index"; "_alpha"; "_alpha_set"; "_alpha_index"]
  | Sizeable => ["_index"; "_array"; "_length_index"]
  | Sequence => ["_exist"; "_extension_function_positions"]
  | Choice => ["_index_range"; "_selection"; "_unchecked_union"]
  | Enumerated => ["_index_range"; "_values_array"; "_values_array_count"; "_encoded_values_array";
                   "_encoded_values_array_count"]
  end.
(** FE_TypeDefinition: class, program unit, typeName, asn1Name, kind and further names. asn1Module
    is left out. *)
Inductive tdef := Def (c : class) (unit name asn1 : string) (k : tkind) (aux : list string)
with tkind := ToRTL | NewType | SubType (d : tdef) | ToOther.
Definition def_class (d : tdef) := match d with Def c _ _ _ _ _ => c end.
Definition def_unit (d : tdef) := match d with Def _ u _ _ _ _ => u end.
Definition def_name (d : tdef) := match d with Def _ _ n _ _ _ => n end.
Definition def_asn1 (d : tdef) := match d with Def _ _ _ a _ _ => a end.
Definition def_kind (d : tdef) := match d with Def _ _ _ _ k _ => k end.
Definition def_aux (d : tdef) := match d with Def _ _ _ _ _ x => x end.
Definition with_kind (d : tdef) (k : tkind) := match d with Def c u n a _ x => Def c u n a k x end.

(** Asn1AcnMergeState, the part used here: allocatedTypeNames, allocatedFE_TypeDefinition and
    temporaryTypesAllocation. *)
Record state := mkst { alloc : names; defs : list (ref * tdef); temp : list (ref * string) }.
Fixpoint find_ref {A} (k : ref) (m : list (ref * A)) : option A :=
  match m with [] => None | (k', v) :: m => if ref_eq k k' then Some v else find_ref k m end.
(** Map.Remove and Map.Add *)
Definition remove_ref {A} (k : ref) (m : list (ref * A)) : list (ref * A) :=
  filter (fun kv => if ref_eq k (fst kv) then false else true) m.
Definition add_ref {A} (k : ref) (v : A) (m : list (ref * A)) : list (ref * A) := (k, v) :: remove_ref k m.

(** id.ModName, CommonTypes.fs:519-524. *)
Definition mod_name (i : ref) : out string := match i with MD m :: _ => Ok m | _ => Raise end.

Section Register.
  Variable fuel : nat.
  (** args.TypePrefix *)
  Variable tp : string.

  (** reserveMasterTypeDefinitionName, FE_TypeDefinition.fs:75-78. *)
  Definition reserve_master (us : state) (i : ref) (unit name : string) : out (string * names) :=
    match find_ref i (temp us) with
    | None => reserve fuel tp (alloc us) unit name
    | Some n => Ok (n, alloc us)
    end.
  (** getProposedTypeDefName, FE_TypeDefinition.fs:81-104. *)
  Definition proposed (us : state) (i : ref) : out (string * string) :=
    let last :=
      match rev i with
      | SEQ_CHILD n _ :: _ | CH_CHILD n _ _ :: _ => Ok (n, n)
      | TA n :: _ => Ok ((tp ++ n)%string, n)
      | SQF :: _ => Ok ("elem"%string, "elem"%string)
      | _ => Raise
      end in
    bind last (fun '(n, a) =>
    let parent :=
      match i with
      | [MD _; TA _] => Ok None
      | MD _ :: TA _ :: _ => Ok (find_ref (rev (tl (rev i))) (defs us))
      | _ => Raise
      end in
    bind parent (fun p =>
    match p with
    | None => Ok (ToC n, a)
    | Some d => Ok (ToC (def_name d ++ "_" ++ n), (def_asn1 d ++ "-" ++ a)%string)
    end)).
  (** temporaryRegisterTypeDefinition, FE_TypeDefinition.fs:107-109. *)
  Definition temporary (us : state) (i : ref) (unit name : string) : out state :=
    bind (reserve fuel tp (alloc us) unit name) (fun '(n, m) =>
    Ok (mkst m (defs us) (add_ref i n (temp us)))).

  (** The further names, one after the other. *)
  Fixpoint reserve_all (m : names) (unit prop : string) (sufs : list string) : out (list string * names) :=
    match sufs with
    | [] => Ok ([], m)
    | s :: sufs =>
        bind (reserve fuel tp m unit (prop ++ s)) (fun '(n, m) =>
        bind (reserve_all m unit prop sufs) (fun '(ns, m) => Ok (n :: ns, m)))
    end.
  (** A new definition of [i] in state [us], whose names are reserved in the map of [us0]; e.g.
      FE_TypeDefinition.fs:139-141, 143-147, 279-285, 287-294. The other five functions pass ns1
      where registerPrimitiveTypeDefinition passes us (line 146). *)
  Definition define (c : class) (us0 us : state) (i : ref) (unit : string) (k : tkind) : out (tdef * state) :=
    bind (proposed us i) (fun '(prop, asn1) =>
    bind (reserve_master us0 i unit prop) (fun '(n, m) =>
    bind (reserve_all m unit prop (suffixes c)) (fun '(aux, m) =>
    let d := Def c unit n asn1 k aux in
    Ok (d, mkst m (add_ref i d (defs us)) (temp us))))).
  (** A register function called with FEI_NewTypeDefinition. *)
  Definition register_new (c : class) (us : state) (i : ref) : out (tdef * state) :=
    bind (mod_name i) (fun mn =>
    match find_ref i (defs us) with
    | Some v => if class_eq (def_class v) c then Ok (v, us) else Raise
    | None => define c us us i (ToC mn) NewType
    end).

  (** FE_TypeDefinitionKindInternal; [FRTL] with the result of getRtlDefinitionFunc. *)
  Inductive fei := FRTL (rtl : option (string * string * string)) | FNew | FSub (i : ref) | FRef (i : ref).
  (** registerPrimitiveTypeDefinition, registerStringTypeDefinition, registerSizeableTypeDefinition,
      registerSequenceTypeDefinition, registerChoiceTypeDefinition and
      registerEnumeratedTypeDefinition, FE_TypeDefinition.fs:112-395. *)
  Definition register (c : class) (us : state) (i : ref) (kind : fei) : out (tdef * state) :=
    bind (mod_name i) (fun mn =>
    let unit := ToC mn in
    match find_ref i (defs us) with
    | Some v =>
        if class_eq (def_class v) c then
          match kind with
          | FSub sub =>
              match def_kind v with
              | SubType _ => Ok (v, us)
              | _ =>
                  bind (register_new c us sub) (fun '(s, ns1) =>
                  let d := with_kind v (SubType s) in
                  Ok (d, mkst (alloc ns1) (add_ref i d (remove_ref i (defs ns1))) (temp ns1)))
              end
          | _ => Ok (v, us)
          end
        else Raise
    | None =>
        match kind with
        | FRTL r =>
            match c, r with
            | Primitive, Some (u, n, a) => Ok (Def Primitive u n a ToRTL [], us)
            | _, _ => Raise
            end
        | FNew => define c us us i unit NewType
        | FSub sub =>
            bind (register_new c us sub) (fun '(s, ns1) =>
            define c (if class_eq c Primitive then us else ns1) ns1 i unit (SubType s))
        | FRef r =>
            bind (register_new c us r) (fun '(d, ns) => Ok (with_kind d ToOther, ns))
        end
    end).

  (** One call of a register function. Which calls there are, and in which order, depends on the
      grammar (AcnCreateFromAntlr.fs, mergeType and getTypedefKind): any here. *)
  Record call := mkcall { c_class : class; c_id : ref; c_kind : fei }.
  Fixpoint calls (us : state) (l : list call) : out (list tdef * state) :=
    match l with
    | [] => Ok ([], us)
    | c :: l =>
        bind (register (c_class c) us (c_id c) (c_kind c)) (fun '(d, us) =>
        bind (calls us l) (fun '(ds, us) => Ok (d :: ds, us)))
    end.
  (** The type assignments of all modules are registered first, AcnCreateFromAntlr.fs:1762-1782. *)
  Fixpoint temporaries (us : state) (l : list (string * string)) : out state :=
    match l with
    | [] => Ok us
    | (m, t) :: l =>
        bind (temporary us [MD m; TA t] (ToC m) (ToC (tp ++ t))) (fun us => temporaries us l)
    end.
  Definition initial_state : state := mkst [] [] [].
  (** mergeAsn1WithAcnAst: [tas] the type assignments as pairs of module and name. *)
  Definition merge (tas : list (string * string)) (l : list call) : out (list tdef * state) :=
    bind (temporaries initial_state tas) (fun us => calls us l).
End Register.

(** Other names at file scope of the generated C: the types of the run-time library
    (asn1crt/asn1crt.h:141-295; the ones that begin with a capital letter) and the functions of a
    type assignment (DAstUPer.fs:15-18 with CommonTypes.fs codec.suffix, DAstInitialize.fs:168-169,
    DastValidate2.fs:564-565, DAstEqual.fs:114-115). *)
Definition rtl_types : list string :=
  ["NullType"; "BitStream"; "ByteStream"; "Token"; "XmlAttribute"; "XmlAttributeArray";
   "Asn1ObjectIdentifier"; "Asn1TimeZone"; "Asn1TimeWithTimeZone"; "Asn1UtcTime"; "Asn1LocalTime";
   "Asn1Date"; "Asn1DateLocalTime"; "Asn1DateUtcTime"; "Asn1DateTimeWithTimeZone";
   "Asn1TimeZoneClass"; "BerTag"].
Definition functions (typeName : string) : list string :=
  map (append typeName) ["_Encode"; "_Decode"; "_Initialize"; "_IsConstraintValid"; "_Equal"].
