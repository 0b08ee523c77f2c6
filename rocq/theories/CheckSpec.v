(** The values of ASN.1 types (X.680), independently of the checks of the compiler. *)
From Verif Require Import Check.
From Coq Require Import List String Ascii Bool Arith ZArith QArith.
Import ListNotations.
Local Open Scope string_scope.
Local Open Scope list_scope.

(** * Values *)
(** A SEQUENCE value has the components that are given, in the order of the type. *)
Inductive aval :=
| AInt (z : Z) | AReal (q : Q) | AStr (s : string) | ABool (b : bool)
| ABits (l : list bool) | AOcts (l : list Z) | ANull
| AEnum (x : string)
| AList (l : list aval)
| ASeq (l : list (string * aval))
| ACh (n : string) (v : aval).
Fixpoint octet_bits (n : nat) (z : Z) : list bool :=
  match n with O => [] | S n => Z.testbit z (Z.of_nat n) :: octet_bits n z end.

Section meaning.
Variable tyof : string -> string -> option xtype.
Variable valof : string -> string -> option (xtype * xval).

(** The type behind references. *)
Inductive resolves : xtype -> xkind -> Prop :=
| r_here : forall k cs, (forall m T, k <> TRef m T) -> resolves (XT k cs) k
| r_ref : forall m T cs t k, tyof m T = Some t -> resolves t k -> resolves (XT (TRef m T) cs) k.

(** [den s t e v]: as a value of type [t], the notation [e] means [v], regardless of the
    constraints of [t]. [Plain] is the notation of X.680. [Strict]: no names of values occur (the
    items of ENUMERATED types are not such names), REAL values are not written as INTEGER values,
    OCTET STRING values are written as octets, BIT STRING values as bits. [Loose]: the components
    of a SEQUENCE value may come in any order, and repeated ones count once. *)
Inductive mode := Strict | Plain | Loose.
Definition byte (z : Z) : Prop := (0 <= z < 256)%Z.
Definition assoc_same (l l' : list (string * xval)) : Prop := forall n, assoc n l = assoc n l'.
Inductive den (s : mode) : xtype -> xval -> aval -> Prop :=
| d_ref : forall m T cs t e v, tyof m T = Some t -> den s t e v -> den s (XT (TRef m T) cs) e v
| d_int : forall cs z, den s (XT TInt cs) (XInt z) (AInt z)
| d_real : forall cs q, den s (XT TReal cs) (XReal q) (AReal (Qred q))
| d_real_int : forall cs z, s <> Strict -> den s (XT TReal cs) (XInt z) (AReal (Qred (inject_Z z)))
| d_str : forall cs x, den s (XT TStr cs) (XStr x) (AStr x)
| d_bool : forall cs b, den s (XT TBool cs) (XBool b) (ABool b)
| d_bits : forall cs l, den s (XT TBits cs) (XBits l) (ABits l)
| d_octs : forall cs l, den s (XT TOcts cs) (XOcts l) (AOcts l)
| d_bits_octs : forall cs l, s <> Strict -> den s (XT TBits cs) (XOcts l) (ABits (flat_map (octet_bits 8) l))
| d_octs_bits : forall cs l os zs, s <> Strict -> Forall byte os -> Forall (fun b => b = false) zs -> (List.length zs < 8)%nat ->
    (l ++ zs = flat_map (octet_bits 8) os)%list -> den s (XT TOcts cs) (XBits l) (AOcts os)
| d_null : forall cs, den s (XT TNull cs) XNull ANull
| d_item : forall cs items m x, In x items -> den s (XT (TEnum items) cs) (XRef m x) (AEnum x)
| d_name : forall k cs m n t e v, s <> Strict -> (forall m T, k <> TRef m T) ->
    (forall items, k = TEnum items -> ~ In n items) -> valof m n = Some (t, e) ->
    den s (XT k cs) e v -> den s (XT k cs) (XRef m n) v
| d_of : forall cs t l vs, den_all s t l vs -> den s (XT (TOf t) cs) (XOf l) (AList vs)
| d_seq : forall cs comps l fs, NoDup (map (fun c => fst (fst c)) comps) ->
    den_fields s comps l fs -> den s (XT (TSeq comps) cs) (XSeq l) (ASeq fs)
| d_seq_any : forall cs comps l l' fs, s = Loose -> NoDup (map (fun c => fst (fst c)) comps) ->
    assoc_same l l' -> den_fields s comps l' fs -> den s (XT (TSeq comps) cs) (XSeq l) (ASeq fs)
| d_ch : forall cs alts n t e v, assoc n alts = Some t -> den s t e v -> den s (XT (TCh alts) cs) (XCh n e) (ACh n v)
with den_all (s : mode) : xtype -> list xval -> list aval -> Prop :=
| da_nil : forall t, den_all s t [] []
| da_cons : forall t e l v vs, den s t e v -> den_all s t l vs -> den_all s t (e :: l) (v :: vs)
with den_fields (s : mode) : list (string * xopt * xtype) -> list (string * xval) -> list (string * aval) -> Prop :=
| df_nil : den_fields s [] [] []
| df_given : forall n o t comps e l v fs, den s t e v -> den_fields s comps l fs -> ~ In n (map fst l) ->
    den_fields s ((n, o, t) :: comps) ((n, e) :: l) ((n, v) :: fs)
| df_absent : forall n o t comps l fs, o <> Omust -> den_fields s comps l fs -> ~ In n (map fst l) ->
    den_fields s ((n, o, t) :: comps) l fs.

(** * Constraints *)
Definition asize (v : aval) : option Z :=
  match v with
  | AStr s => Some (Z.of_nat (String.length s))
  | ABits l => Some (Z.of_nat (List.length l))
  | AOcts l => Some (Z.of_nat (List.length l))
  | AList l => Some (Z.of_nat (List.length l))
  | _ => None
  end.
Definition acode (s : string) : option Z := match s with String c EmptyString => Some (Z.of_nat (nat_of_ascii c)) | _ => None end.
(** Order of numbers. *)
Definition aless (incl : bool) (a b : aval) : Prop :=
  match a, b with
  | AInt x, AInt y => if incl then (x <= y)%Z else (x < y)%Z
  | AReal x, AReal y => if incl then (x <= y)%Q else (x < y)%Q
  | _, _ => False
  end.
(** Characters permitted by the constraint within FROM: a string stands for its characters. *)
Definition char_less (incl : bool) (a b : string) : Prop :=
  exists x y, acode a = Some x /\ acode b = Some y /\ if incl then (x <= y)%Z else (x < y)%Z.
Fixpoint permits (c : xcon) (x : string) : Prop :=
  match c with
  | NSingle (XStr s) => In x (explode s)
  | NRange (XStr a) (XStr b) i j => char_less i a x /\ char_less j x b
  | NFrom (XStr a) i => char_less i a x
  | NTo (XStr b) j => char_less j x b
  | NAny => True
  | NUnion c d | NRoot2 c d => permits c x \/ permits d x
  | NInter c d => permits c x /\ permits d x
  | NAll c => ~ permits c x
  | NExcept c d => permits c x /\ ~ permits d x
  | NRoot c => permits c x
  | _ => False
  end.
Definition apart_of (n : string) (v : aval) : option aval :=
  match v with ASeq l => assoc n l | ACh m w => if String.eqb m n then Some w else None | _ => None end.
Definition comp_type (k : xkind) (n : string) : option xtype :=
  match k with TSeq l => find_comp n l | TCh l => assoc n l | _ => None end.

(** [P m T]: the values of the type [T] of module [m]. *)
Variable P : string -> string -> aval -> Prop.
(** [v], of a type of kind [k], satisfies the constraint. *)
Fixpoint satisfies (c : xcon) (k : xkind) (v : aval) {struct c} : Prop :=
  match c with
  | NSingle e => den Plain (XT k []) e v
  | NRange a b i j => exists x y, den Plain (XT k []) a x /\ den Plain (XT k []) b y /\ aless i x v /\ aless j v y
  | NFrom a i => exists x, den Plain (XT k []) a x /\ aless i x v
  | NTo b j => exists y, den Plain (XT k []) b y /\ aless j v y
  | NAny => True
  | NIncl m T => P m T v
  | NSize c => exists n, asize v = Some n /\ satisfies c TInt (AInt n)
  | NAlpha c => exists s, v = AStr s /\ forall x, In x (explode s) -> permits c x
  | NUnion c d | NRoot2 c d => satisfies c k v \/ satisfies d k v
  | NInter c d => satisfies c k v /\ satisfies d k v
  | NAll c => ~ satisfies c k v
  | NExcept c d => satisfies c k v /\ ~ satisfies d k v
  | NRoot c => satisfies c k v
  | NWith c => exists t kt l, k = TOf t /\ resolves t kt /\ v = AList l /\ forall x, In x l -> satisfies c kt x
  | NWiths ncs =>
      (fix all (l : list (string * pmark * option xcon)) : Prop :=
         match l with
         | [] => True
         | (n, mark, oc) :: l =>
             match mark with MarkPresent => apart_of n v <> None | MarkAbsent => apart_of n v = None | _ => True end /\
             match oc with
             | Some c => forall w, apart_of n v = Some w -> exists t kt, comp_type k n = Some t /\ resolves t kt /\ satisfies c kt w
             | None => True
             end /\ all l
         end) ncs
  end.
(** [v] is a value of the type. *)
Fixpoint values_of (t : xtype) (v : aval) {struct t} : Prop :=
  match t with
  | XT k cs =>
      match k with
      | TInt => exists z, v = AInt z
      | TReal => exists q, v = AReal q
      | TStr => exists s, v = AStr s
      | TBool => exists b, v = ABool b
      | TBits => exists l, v = ABits l
      | TOcts => exists l, v = AOcts l
      | TNull => v = ANull
      | TEnum items => exists x, In x items /\ v = AEnum x
      | TOf t => exists l, v = AList l /\ forall x, In x l -> values_of t x
      | TSeq comps =>
          exists fs, v = ASeq fs /\
          (fix all (comps : list (string * xopt * xtype)) (fs : list (string * aval)) : Prop :=
             match comps with
             | [] => fs = []
             | (n, o, t) :: comps =>
                 match fs with
                 | (n', w) :: fs' => if String.eqb n n' then values_of t w /\ all comps fs' else o <> Omust /\ all comps fs
                 | [] => o <> Omust /\ all comps fs
                 end
             end) comps fs
      | TCh alts =>
          exists n w, v = ACh n w /\
          (fix any (l : list (string * xtype)) : Prop :=
             match l with [] => False | (n', t) :: l => if String.eqb n' n then values_of t w else any l end) alts
      | TRef m T => P m T v
      end /\
      exists kr, resolves (XT k []) kr /\ (fix all (cs : list xcon) : Prop := match cs with [] => True | c :: cs => satisfies c kr v /\ all cs end) cs
  end.
(** [P] gives every type its values. *)
Definition meaning : Prop := forall m T t v, tyof m T = Some t -> (P m T v <-> values_of t v).

(** * Where the checks are right *)
(** Constraints on characters. *)
Definition one_char (s : string) : Prop := exists c, s = String c EmptyString.
Fixpoint alpha_tame (c : xcon) : Prop :=
  match c with
  | NSingle (XStr s) => one_char s
  | NRange (XStr a) (XStr b) _ _ => one_char a /\ one_char b
  | NFrom (XStr a) _ | NTo (XStr a) _ => one_char a
  | NAny => True
  | NUnion c d | NRoot2 c d | NInter c d | NExcept c d => alpha_tame c /\ alpha_tame d
  | NAll c | NRoot c => alpha_tame c
  | _ => False
  end.
Definition number (k : xkind) : Prop := k = TInt \/ k = TReal.
Definition simple (k : xkind) : Prop :=
  match k with TInt | TReal | TStr | TBool | TBits | TOcts | TNull | TEnum _ => True | _ => False end.
(** Constraints of a type of kind [k]; the flag: not within WITH COMPONENT or WITH COMPONENTS. *)
Inductive tame : bool -> xkind -> xcon -> Prop :=
| t_single : forall b k e v, den Strict (XT k []) e v -> tame b k (NSingle e)
| t_range : forall b k lo hi i j v w, number k -> den Strict (XT k []) lo v -> den Strict (XT k []) hi w -> tame b k (NRange lo hi i j)
| t_from : forall b k lo i v, number k -> den Strict (XT k []) lo v -> tame b k (NFrom lo i)
| t_to : forall b k hi j v, number k -> den Strict (XT k []) hi v -> tame b k (NTo hi j)
| t_any : forall b k, tame b k NAny
| t_incl : forall b k m T cs, simple k -> tyof m T = Some (XT k cs) -> Forall (tame b k) cs -> tame b k (NIncl m T)
| t_size : forall (b : bool) k c, (match k with TStr | TOf _ => True | TBits | TOcts => b = true | _ => False end) -> tame true TInt c -> tame b k (NSize c)
| t_alpha_set : forall b s, tame b TStr (NAlpha (NSingle (XStr s)))
| t_alpha : forall b c, alpha_tame c -> tame b TStr (NAlpha c)
| t_union : forall b k c d, tame b k c -> tame b k d -> tame b k (NUnion c d)
| t_root2 : forall b k c d, tame b k c -> tame b k d -> tame b k (NRoot2 c d)
| t_inter : forall b k c d, tame b k c -> tame b k d -> tame b k (NInter c d)
| t_except : forall b k c d, tame b k c -> tame b k d -> tame b k (NExcept c d)
| t_all : forall b k c, tame b k c -> tame b k (NAll c)
| t_root : forall b k c, tame b k c -> tame b k (NRoot c)
| t_with : forall b t kt c, resolves t kt -> tame false kt c -> tame b (TOf t) (NWith c)
| t_withs_seq : forall b comps l,
    (forall n mark oc, In (n, mark, oc) l -> (mark = MarkOptional -> oc = None) /\
       forall c, oc = Some c -> exists t kt, find_comp n comps = Some t /\ resolves t kt /\ tame false kt c) ->
    tame b (TSeq comps) (NWiths l)
| t_withs_ch : forall b alts l, NoDup (map (fun x => fst (fst x)) l) ->
    (forall n mark oc, In (n, mark, oc) l -> mark <> MarkPresent /\
       forall c, oc = Some c -> exists t kt, assoc n alts = Some t /\ resolves t kt /\ tame false kt c) ->
    tame b (TCh alts) (NWiths l).
Fixpoint type_tame (t : xtype) : Prop :=
  match t with
  | XT k cs =>
      (exists kr, resolves (XT k []) kr /\ Forall (tame true kr) cs) /\
      match k with
      | TOf t => type_tame t
      | TSeq comps =>
          (fix all (l : list (string * xopt * xtype)) : Prop := match l with [] => True | (_, _, t) :: l => type_tame t /\ all l end) comps
      | TCh alts => (fix all (l : list (string * xtype)) : Prop := match l with [] => True | (_, t) :: l => type_tame t /\ all l end) alts
      | _ => True
      end
  end.
(** The components of every SEQUENCE within the type have different names. *)
Fixpoint unique_names (t : xtype) : Prop :=
  match t with
  | XT k _ =>
      match k with
      | TOf t => unique_names t
      | TSeq comps => NoDup (map (fun c => fst (fst c)) comps) /\
          (fix all (l : list (string * xopt * xtype)) : Prop := match l with [] => True | (_, _, t) :: l => unique_names t /\ all l end) comps
      | TCh alts => (fix all (l : list (string * xtype)) : Prop := match l with [] => True | (_, t) :: l => unique_names t /\ all l end) alts
      | _ => True
      end
  end.
Definition all_unique : Prop := forall m T t, tyof m T = Some t -> unique_names t.
Definition all_tame : Prop := forall m T t, tyof m T = Some t -> type_tame t.
End meaning.

(** The order of a dictionary. *)
Definition string_before (a b : string) : Prop :=
  exists p, (a = p /\ exists c r, b = (p ++ String c r)%string) \/
    (exists c d r s, a = (p ++ String c r)%string /\ b = (p ++ String d s)%string /\ (nat_of_ascii c < nat_of_ascii d)%nat).
(** [z] is [q] without the part after the point. *)
Definition whole_part (q : Q) (z : Z) : Prop :=
  (0 <= q -> inject_Z z <= q < inject_Z (z + 1)) /\ (q <= 0 -> inject_Z (z - 1) < q <= inject_Z z).
(** The bits, filled up with zeros, are those of the octets. *)
Definition fills (a : list bool) (o : list Z) : Prop :=
  Forall (fun z => 0 <= z < 256)%Z o /\ exists pad, (pad < 8)%nat /\ flat_map (octet_bits 8) o = a ++ repeat false pad.
