(** What C asks of the names of types (C99 6.2.1-6.2.3, 6.4.1, 6.4.2, 6.7.5). *)
From Coq Require Import String Ascii List Bool ZArith.
From Coq Require Decimal DecimalString.
From Verif Require Import Names TypeNames.
Import ListNotations.
Local Open Scope list_scope.
Local Open Scope Z_scope.

(** 6.4.2.1: letters, digits and underscores, not beginning with a digit. *)
Definition between (a b c : ascii) : Prop := (nat_of_ascii a <= nat_of_ascii c <= nat_of_ascii b)%nat.
Definition digit (c : ascii) : Prop := between "0" "9" c.
Definition nondigit (c : ascii) : Prop := between "a" "z" c \/ between "A" "Z" c \/ c = "_"%char.
Definition word (s : string) : Prop := forall c, In c (list_ascii_of_string s) -> digit c \/ nondigit c.
Definition identifier (s : string) : Prop := word s /\ exists c r, s = String c r /\ nondigit c.
(** 6.4.1, the keywords of C90. *)
Definition c90 : list string :=
  ["auto"; "break"; "case"; "char"; "const"; "continue"; "default"; "do"; "double"; "else"; "enum";
   "extern"; "float"; "for"; "goto"; "if"; "int"; "long"; "register"; "return"; "short"; "signed";
   "sizeof"; "static"; "struct"; "switch"; "typedef"; "union"; "unsigned"; "void"; "volatile";
   "while"]%string.

(** The names that belong to a definition. *)
Definition def_names (d : tdef) : list string := def_name d :: def_aux d.
(** The names taken so far. *)
Definition taken (m : names) : list string := map fst m.
Definition disjoint {A} (l l' : list A) : Prop := forall x, In x l -> ~ In x l'.

(** Definitions that differ in the kind only. *)
Definition same_def (d d' : tdef) : Prop :=
  def_class d = def_class d' /\ def_unit d = def_unit d' /\ def_name d = def_name d' /\
  def_asn1 d = def_asn1 d' /\ def_aux d = def_aux d'.
Definition defined (st : state) (i : ref) (d : tdef) : Prop :=
  exists d', find_ref i (defs st) = Some d' /\ same_def d d'.
(** The types that a call defines. *)
Definition targets (c : call) : list ref :=
  match c_kind c with FRTL _ => [] | FNew => [c_id c] | FSub s => [c_id c; s] | FRef r => [r] end.
(** A type is either defined or said to be another one (or one of the library). *)
Definition settled (l : list call) : Prop :=
  forall c, In c l -> match c_kind c with FRTL _ | FRef _ => ~ In (c_id c) (flat_map targets l) | _ => True end.
(** What the caller got is what stands in the end. *)
Definition answer (st : state) (c : call) (d : tdef) : Prop :=
  match c_kind c with
  | FRTL r => option_map (fun '(u, n, _) => (u, n)) r = Some (def_unit d, def_name d)
  | FRef r => defined st r d
  | _ => defined st (c_id c) d
  end.
(** The base of a subtype is another type, of a primitive one a type assignment (getTypedefKind,
    FE_TypeDefinition.fs:426-468). *)
Definition based (tas : list (string * string)) (c : call) : Prop :=
  forall s, c_kind c = FSub s -> s <> c_id c /\
    (c_class c = Primitive -> exists m t, In (m, t) tas /\ s = [MD m; TA t]).

(** Decimal digits. *)
Definition digits : Decimal.uint -> string := DecimalString.NilEmpty.string_of_uint.
(** An identifier whose number at the end, if any, may be counted up once for every name taken, and
    which is not the type prefix with a number. *)
Definition countable (tp : string) (m : names) (name : string) : Prop :=
  identifier name /\
  (forall b d, name = (b ++ "_" ++ digits d)%string -> Z.of_uint d + Z.of_nat (length m) < 2 ^ 31 - 2) /\
  (forall d, name <> (tp ++ digits d)%string).
