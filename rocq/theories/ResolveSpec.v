(** The meaning of the values of a grammar with named bits and COMPONENTS OF (X.680 clauses 17, 20,
    22, 25, 37, 41), independently of the compiler. *)
From Verif Require Import Resolve.
From Verif Require Export CheckSpec.
From Coq Require Import List String Ascii Bool Arith ZArith QArith.
Import ListNotations.
Local Open Scope string_scope.
Local Open Scope list_scope.

Section meaning.
Variable tyof : string -> string -> option gtype.
Variable valof : string -> string -> option (gtype * gval).

(** The type behind references. *)
Inductive behind : gtype -> gtype -> Prop :=
| b_here : forall t, (forall m T cs, t <> URef m T cs) -> behind t t
| b_ref : forall m T cs t k, tyof m T = Some t -> behind t k -> behind (URef m T cs) k.
(** The components of a SEQUENCE. *)
Inductive components : list gchild -> list (string * gopt * gtype) -> Prop :=
| c_nil : components [] []
| c_own : forall n o t l r, components l r -> components (UComp n o t :: l) ((n, o, t) :: r)
| c_of : forall m T t l' r' l r, tyof m T = Some t -> behind t (USeq l') -> components l' r' -> components l r ->
    components (UCompsOf m T :: l) (r' ++ r).
(** Every COMPONENTS OF, at any depth, names a type that is written as a SEQUENCE. *)
Inductive direct : list gchild -> Prop :=
| di_nil : direct []
| di_own : forall n o t l, direct l -> direct (UComp n o t :: l)
| di_of : forall m T l' l, tyof m T = Some (USeq l') -> direct l' -> direct l -> direct (UCompsOf m T :: l).
(** The number a value stands for. *)
Inductive number_of : gval -> Z -> Prop :=
| n_int : forall z, number_of (GInt z) z
| n_name : forall m n t e z, valof m n = Some (t, e) -> number_of e z -> number_of (GRef m n) z.
Inductive bit_number : gbit -> Z -> Prop :=
| bn_number : forall z, bit_number (BitNumber z) z
| bn_value : forall m n z, number_of (GRef m n) z -> bit_number (BitValue m n) z.
Inductive names_bit (names : list (string * gbit)) : gval -> Z -> Prop :=
| nb : forall m n b z, assoc n names = Some b -> bit_number b z -> names_bit names (GRef m n) z.
(** The bits that are one are those of the list; zeros at the end do not matter (22.7). *)
Definition bits_at (ps : list Z) (bs : list bool) : Prop :=
  forall p, In p ps <-> (0 <= p)%Z /\ nth (Z.to_nat p) bs false = true.
(** The number of bits that are written for the list: with a largest size of [b] all [b] bits, else
    up to the last that is one. *)
Definition bits_written (r : UperTypes.range) (ps : list Z) (n : nat) : Prop :=
  match r with
  | UperTypes.Concrete _ b => Z.of_nat n = b
  | _ => exists m, In m ps /\ (forall p, In p ps -> (p <= m)%Z) /\ n = Z.to_nat (m + 1)
  end.
(** A part of a string. *)
Inductive part_of : gval -> string -> Prop :=
| p_text : forall s, part_of (GStr s) s
| p_cr : forall m, part_of (GRef m "cr") (String (ascii_of_nat 13) "")
| p_lf : forall m, part_of (GRef m "lf") (String (ascii_of_nat 10) "")
| p_ht : forall m, part_of (GRef m "ht") (String (ascii_of_nat 9) "")
| p_nul : forall m, part_of (GRef m "nul") (String (ascii_of_nat 0) "").
Inductive text_of : list gval -> string -> Prop :=
| t_nil : text_of [] ""
| t_cons : forall e l s r, part_of e s -> text_of l r -> text_of (e :: l) (s ++ r)%string.

(** As a value of the type, the notation means the value. *)
Inductive gden : gtype -> gval -> aval -> Prop :=
| g_ref : forall m T cs t e v, tyof m T = Some t -> gden t e v -> gden (URef m T cs) e v
| g_int : forall z, gden UInt (GInt z) (AInt z)
| g_real : forall q, gden UReal (GReal q) (AReal (Qred q))
| g_real_int : forall z, gden UReal (GInt z) (AReal (Qred (inject_Z z)))
| g_str : forall x, gden UStr (GStr x) (AStr x)
| g_text : forall l s, text_of l s -> gden UStr (GOf l) (AStr s)
| g_bool : forall b, gden UBool (GBool b) (ABool b)
| g_bits : forall ns cs l, gden (UBits ns cs) (GBits l) (ABits l)
| g_named : forall ns cs l ps bs, Forall2 (names_bit ns) l ps -> bits_at ps bs -> gden (UBits ns cs) (GOf l) (ABits bs)
| g_no_bits : forall ns cs bs, bits_at [] bs -> gden (UBits ns cs) GEmpty (ABits bs)
| g_octs : forall l, gden UOcts (GOcts l) (AOcts l)
| g_bits_octs : forall ns cs l, gden (UBits ns cs) (GOcts l) (ABits (flat_map (octet_bits 8) l))
| g_octs_bits : forall l os zs, Forall byte os -> Forall (fun b => b = false) zs -> (List.length zs < 8)%nat ->
    l ++ zs = flat_map (octet_bits 8) os -> gden UOcts (GBits l) (AOcts os)
| g_null : gden UNull GNull ANull
| g_item : forall items m x, In x items -> gden (UEnum items) (GRef m x) (AEnum x)
| g_name : forall k m n t e v, (forall m T cs, k <> URef m T cs) -> (forall items, k = UEnum items -> ~ In n items) ->
    valof m n = Some (t, e) -> behind t k -> gden t e v -> gden k (GRef m n) v
| g_of : forall t l vs, gden_all t l vs -> gden (UOf t) (GOf l) (AList vs)
| g_of_none : forall t, gden (UOf t) GEmpty (AList [])
| g_seq : forall cl comps l fs, components cl comps -> NoDup (map (fun c => fst (fst c)) comps) ->
    gden_fields comps l fs -> gden (USeq cl) (GSeq l) (ASeq fs)
| g_seq_none : forall cl comps fs, components cl comps -> NoDup (map (fun c => fst (fst c)) comps) ->
    gden_fields comps [] fs -> gden (USeq cl) GEmpty (ASeq fs)
| g_ch : forall alts n t e v, assoc n alts = Some t -> gden t e v -> gden (UCh alts) (GCh n e) (ACh n v)
with gden_all : gtype -> list gval -> list aval -> Prop :=
| ga_nil : forall t, gden_all t [] []
| ga_cons : forall t e l v vs, gden t e v -> gden_all t l vs -> gden_all t (e :: l) (v :: vs)
with gden_fields : list (string * gopt * gtype) -> list (string * gval) -> list (string * aval) -> Prop :=
| gf_nil : gden_fields [] [] []
| gf_given : forall n o t comps e l v fs, gden t e v -> gden_fields comps l fs -> ~ In n (map fst l) ->
    gden_fields ((n, o, t) :: comps) ((n, e) :: l) ((n, v) :: fs)
| gf_absent : forall n o t comps l fs, o <> Gmust -> gden_fields comps l fs -> ~ In n (map fst l) ->
    gden_fields ((n, o, t) :: comps) l fs.

(** The same value; zeros at the end of a BIT STRING do not matter. *)
Inductive alike : aval -> aval -> Prop :=
| al_same : forall v, alike v v
| al_bits : forall a b, (forall i, nth i a false = nth i b false) -> alike (ABits a) (ABits b)
| al_list : forall l l', Forall2 alike l l' -> alike (AList l) (AList l')
| al_seq : forall l l', Forall2 (fun x y => fst x = fst y /\ alike (snd x) (snd y)) l l' -> alike (ASeq l) (ASeq l')
| al_ch : forall n v w, alike v w -> alike (ACh n v) (ACh n w).

(** * Where the compiler is right *)
(** The module named last on the way to the type. *)
Inductive last_module : gtype -> string -> Prop :=
| lm_last : forall m T cs t, tyof m T = Some t -> (forall m T cs, t <> URef m T cs) -> last_module (URef m T cs) m
| lm_next : forall m T cs t m', tyof m T = Some t -> last_module t m' -> last_module (URef m T cs) m'.
Definition in_home (t : gtype) (m : string) : Prop := forall m', last_module t m' -> m' = m.
(** The names of values are declared with the type they are used with; a name of a value of an
    ENUMERATED type is one of the module of that type; no named bit is below zero or beyond the
    largest size, and a value without any is not written as { }, nor as an empty list unless there is
    a largest size. *)
Inductive orderly : gtype -> gval -> Prop :=
| o_leaf : forall t e, match e with
    | GOf _ | GSeq _ | GCh _ _ | GRef _ _ => False | GEmpty => forall ns cs, ~ behind t (UBits ns cs) | _ => True end -> orderly t e
| o_item : forall t items m x, behind t (UEnum items) -> In x items -> orderly t (GRef m x)
| o_name : forall t k m n t' e, behind t k -> (forall items, k = UEnum items -> ~ In n items /\ in_home t m) ->
    valof m n = Some (t', e) -> behind t' k -> orderly t (GRef m n)
| o_named : forall t ns cs l, behind t (UBits ns cs) ->
    (exists r, Constraints.getSizeableUperRange ConSpec.len cs = Some r /\ (l = [] -> exists a b, r = UperTypes.Concrete a b)) ->
    (forall e p, In e l -> names_bit ns e p -> (0 <= p)%Z /\
       forall a b, Constraints.getSizeableUperRange ConSpec.len cs = Some (UperTypes.Concrete a b) -> (p < b < 2 ^ 32)%Z) ->
    orderly t (GOf l)
| o_text : forall t l, behind t UStr -> orderly t (GOf l)
| o_of : forall t t' l, behind t (UOf t') -> (forall e, In e l -> orderly t' e) -> orderly t (GOf l)
| o_seq : forall t cl comps l, behind t (USeq cl) -> components cl comps ->
    (forall n e, In (n, e) l -> forall t', find_child n comps = Some t' -> orderly t' e) -> orderly t (GSeq l)
| o_ch : forall t alts n e t', behind t (UCh alts) -> assoc n alts = Some t' -> orderly t' e -> orderly t (GCh n e).
Definition all_orderly : Prop := forall m n t e, valof m n = Some (t, e) -> orderly t e.

(** * The resolved grammar *)
Variable tyof' : string -> string -> option xtype.
Variable valof' : string -> string -> option (xtype * xval).
(** Every type and value is the result of the compiler. *)
Definition resolved_types : Prop := forall m T,
  match tyof m T, tyof' m T with
  | Some t, Some t' => exists f, map_type tyof valof f t = Done t'
  | None, None => True
  | _, _ => False
  end.
Definition resolved_values : Prop := forall m n,
  match valof m n, valof' m n with
  | Some (t, e), Some (t', e') => exists f, map_type tyof valof f t = Done t' /\ map_value tyof valof f t e = Done e'
  | None, None => True
  | _, _ => False
  end.
End meaning.
