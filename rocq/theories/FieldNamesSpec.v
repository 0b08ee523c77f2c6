(** What names of components should be. *)
From Verif Require Import Names NamesSpec FieldNames.
From Coq Require Import String Ascii List Bool Arith.
Import ListNotations.
Local Open Scope string_scope.
Local Open Scope list_scope.

(** [within ch l t]: t has a SEQUENCE ([ch] false) or CHOICE ([ch] true) with the components l in it. *)
Inductive within : bool -> list (string * string * fty) -> fty -> Prop :=
| w_seq : forall l, within false l (FSeq l)
| w_choice : forall l, within true l (FChoice l)
| w_seq_in : forall ch l c m, In c m -> within ch l (snd c) -> within ch l (FSeq m)
| w_choice_in : forall ch l c m, In c m -> within ch l (snd c) -> within ch l (FChoice m)
| w_of : forall ch l t, within ch l t -> within ch l (FOf t).
Definition structs_of (r : froot) (m : fmod) (ch : bool) (l : list (string * string * fty)) : Prop :=
  In m r /\ exists t, In t (f_types m) /\ within ch l (snd t).
(** The names of a struct of the header. *)
Definition cnames (l : list (string * string * fty)) : list string := map (fun c => snd (fst c)) l.
(** ASN.1 identifiers (X.680, 12.3): letters, digits and hyphens. *)
Definition id_char (c : ascii) : bool :=
  let n := nat_of_ascii c in
  ((97 <=? n) && (n <=? 122) || (65 <=? n) && (n <=? 90) || (48 <=? n) && (n <=? 57) || (n =? 45))%nat.
Fixpoint identifier (s : string) : bool := match s with "" => true | String c s => id_char c && identifier s end.
Definition identifiers (r : froot) : Prop := forall m ch l, structs_of r m ch l -> forall n, In n (fnames l) -> identifier n = true.
(** A name that may be in the AST as it is read: c_name is ToC of the ASN.1 name. *)
Definition as_read (r : froot) : Prop := forall m ch l, structs_of r m ch l -> cnames l = map ToC (fnames l).
(** A name that begins with a capital letter. *)
Definition capital (s : string) : bool :=
  match s with String c _ => (65 <=? nat_of_ascii c)%nat && (nat_of_ascii c <=? 90)%nat | "" => false end.
(** What the check looks for. *)
Definition acceptable (a : fargs) (r : froot) (m : fmod) (ch : bool) (l : list (string * string * fty)) : Prop :=
  (if ch then NoDup (map lowers (fnames l)) else NoDup (fnames l)) /\
  (a_field a = None -> forall n, In n (fnames l) ->
     (a_keyw a = true -> ~ In (lowers n) c_keywords /\ ~ In (lowers n) ada_keywords) /\
     (forall m', In m' r -> lowers (f_name m') <> ToC (lowers n)) /\
     (a_keyw a = true -> forall t, In t (f_types m) -> ToC (lowers (a_type a ++ fst t)) <> ToC (lowers n))).
(** All names with the path to them. *)
Fixpoint paths (key : list string) (t : fty) : list (list string * string * string) :=
  match t with
  | FSeq l | FChoice l => map (fun c => (key, fst (fst c), snd (fst c))) l ++ flat_map (fun c => paths (key ++ [fst (fst c)]) (snd c)) l
  | FOf t => paths (key ++ ["#"]) t
  | FOther => []
  end.
Definition all_paths (r : froot) : list (list string * string * string) :=
  flat_map (fun m => flat_map (fun t => paths [f_name m; fst t] (snd t)) (f_types m)) r.
(** The name of a component that is a keyword gets the innermost part of the path that is not part of it. *)
Definition innermost (key : list string) (n p : string) : Prop :=
  exists outer k inner, key = outer ++ k :: inner /\ p = ToC k /\ ~ occurs (ToC k) n /\ Forall (fun x => occurs (ToC x) n) inner.
Definition auto_renamed (x y : list string * string * string) : Prop :=
  fst x = fst y /\
  (~ In (snd x) c_keywords -> snd y = snd x) /\
  (In (snd x) c_keywords -> exists p, innermost (fst (fst x)) (snd x) p /\ snd y = (p ++ "_" ++ snd x)%string).
(** Reserved words of Ada 2012 (LRM 2.9). *)
Definition ada2012 : list string :=
  ["abort"; "abs"; "abstract"; "accept"; "access"; "aliased"; "all"; "and"; "array"; "at"; "begin"; "body"; "case";
   "constant"; "declare"; "delay"; "delta"; "digits"; "do"; "else"; "elsif"; "end"; "entry"; "exception"; "exit";
   "for"; "function"; "generic"; "goto"; "if"; "in"; "interface"; "is"; "limited"; "loop"; "mod"; "new"; "not";
   "null"; "of"; "or"; "others"; "out"; "overriding"; "package"; "pragma"; "private"; "procedure"; "protected";
   "raise"; "range"; "record"; "rem"; "renames"; "requeue"; "return"; "reverse"; "select"; "separate"; "some";
   "subtype"; "synchronized"; "tagged"; "task"; "terminate"; "then"; "type"; "until"; "use"; "when"; "while"; "with";
   "xor"].
