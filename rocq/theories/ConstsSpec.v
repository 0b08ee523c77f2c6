(** What the printed constants should be: the object represents the value, and the
    conditions under which it does. *)
From Verif Require Import Base Bits CExpr AcnExprSpec CInit Consts.
From Coq Require Import String Ascii.
Local Open Scope Z_scope.

(** * Representation *)
Fixpoint codes (s : string) : list Z := match s with EmptyString => [] | String c s => kcode c :: codes s end.
Definition part_codes (p : spart) : list Z :=
  match p with PText s => codes s | PCr => [13] | PLf => [10] | PHt => [9] | PNul => [0] end.
Definition chars (l : list spart) : list Z := flat_map part_codes l.
(** The value of the member [m]. *)
Fixpoint member (m : string) (l : list (string * data)) : option data :=
  match l with [] => None | (m', d) :: l => if String.eqb m' m then Some d else member m l end.
(** [n] elements in a struct with or without nCount; without it, nothing may follow. *)
Definition counted (fixed : bool) (n : Z) (elems pad : list data) (d : data) : Prop :=
  if fixed then pad = [] /\ d = DStruct [("arr"%string, DArr elems)]
  else d = DStruct [("nCount"%string, DInt n); ("arr"%string, DArr (elems ++ pad))].
Definition given (n : string) (vals : list (string * pval)) : Prop := In n (map fst vals).
Definition len {A} (l : list A) : Z := Z.of_nat (List.length l).
Inductive repr : pty -> pval -> data -> Prop :=
| rp_ref : forall t v d, repr t v d -> repr t (PRef v) d
| rp_int : forall c z, repr (TInt c) (PInt z) (DInt z)
| rp_bool : forall b : bool, repr TBool (PBool b) (DInt (if b then 1 else 0))
| rp_str : forall n l k, repr (TStr n) (PStr l) (DArr (map DInt (chars l ++ repeat 0 (S k))))
| rp_bits : forall z l bytes pad d, take_bits (len l) bytes = l -> len bytes = (len l + 7) / 8 ->
    counted (dfix z) (len l) (map DInt bytes) pad d -> repr (TBits z) (PBits l) d
| rp_octs : forall z l pad d, counted (dfix z) (len l) (map DInt l) pad d -> repr (TOcts z) (POcts l) d
| rp_enum : forall l e, In e l -> repr (TEnum l) (PEnum (e_name e)) (DInt (e_num e))
| rp_null : forall z, repr TNull PNull (DInt z)
| rp_oid : forall l pad, repr TOid (POid l) (DStruct [("nCount"%string, DInt (len l)); ("values"%string, DArr (map DInt l ++ pad))])
| rp_of : forall z t l ds pad d, Forall2 (repr t) l ds -> counted (dfix z) (len l) ds pad d -> repr (TOf z t) (PList l) d
| rp_seq : forall l vals ms,
    (forall c t v, In (c, t) l -> In (k_name c, v) vals -> exists d, member (k_c c) ms = Some d /\ repr t v d) ->
    (forall c t dv, In (c, t) l -> k_opt c = Some (Some dv) -> ~ given (k_name c) vals ->
       exists d, member (k_c c) ms = Some d /\ repr t dv d) ->
    (forall c t, In (c, t) l -> k_opt c = None -> given (k_name c) vals) ->
    (forall c t, In (c, t) l -> k_opt c <> None -> exists ex z,
       member "exist" ms = Some (DStruct ex) /\ member (k_c c) ex = Some (DInt z) /\
       (z = 1 /\ given (k_name c) vals \/ z = 0 /\ ~ given (k_name c) vals)) ->
    repr (TSeq l) (PSeq vals) (DStruct ms)
| rp_choice : forall l i a t v d, nth_error l i = Some (a, t) -> repr t v d ->
    repr (TChoice l) (PChoice (a_name a) v)
      (DStruct [("kind"%string, DInt (Z.of_nat i + 1)); ("u"%string, DUnion (a_c a) d)]).

(** * Conditions *)
Definition c_name (s : string) : Prop := ident s /\ is_kw s = false.
(** The macros that the printed text uses (asn1crt.h:38-42, limits.h). *)
Definition std_env (env : cenv) : Prop :=
  env "TRUE"%string = Some (int32, 1) /\ env "FALSE"%string = Some (int32, 0) /\
  env "INT_MIN"%string = Some (int32, - 2 ^ 31) /\ env "LLONG_MIN"%string = Some (int64, - 2 ^ 63).
(** Printable ASCII, no quote and no backslash. *)
Definition plain_char (c : ascii) : bool :=
  (32 <=? kcode c) && (kcode c <=? 126) && negb (c =? """")%char && negb (c =? "\")%char.
Definition plain_part (p : spart) : Prop := match p with PText s => all_chars plain_char s = true | _ => True end.
(** A number of elements that the declared array holds and the compiler prints right. *)
Definition fits (gnu : bool) (z : sizes) (n : Z) : Prop :=
  dfix z = (smin z =? smax z) /\ n <= dlen z /\ dlen z < 2 ^ 31 /\ (dfix z = true -> n = dlen z) /\ (n = 0 -> gnu = true).
Section Tame.
  Variables (ws : Z) (env : cenv) (gnu : bool).
  Inductive tame : pty -> pval -> Prop :=
  | m_ref : forall t v, tame t v -> tame t (PRef v)
  | m_int : forall c z, in_tyb (class_type ws c) z = true -> tame (TInt c) (PInt z)
  | m_bool : forall b, tame TBool (PBool b)
  | m_str : forall n l, l <> [] -> Forall plain_part l -> len (chars l) < n -> tame (TStr n) (PStr l)
  | m_bits : forall z l, fits gnu z (len l) -> (dfix z = true \/ len l <= 1) -> tame (TBits z) (PBits l)
  | m_octs : forall z l, fits gnu z (len l) -> Forall (fun b => 0 <= b < 256) l -> tame (TOcts z) (POcts l)
  | m_enum : forall l e t, In e l -> NoDup (map e_name l) -> c_name (e_c e) -> env (e_c e) = Some (t, e_num e) ->
      in_tyb int32 (e_num e) = true -> tame (TEnum l) (PEnum (e_name e))
  | m_null : tame TNull PNull
  | m_oid : forall l, len l <= 20 -> (l = [] -> gnu = true) -> Forall (fun a => 0 <= a < 2 ^ Z.min 63 (8 * ws)) l -> tame TOid (POid l)
  | m_of : forall z t l, fits gnu z (len l) -> Forall (tame t) l -> tame (TOf z t) (PList l)
  | m_seq : forall l vals,
      NoDup (map (fun ct => k_c (fst ct)) l ++ (if existsb (fun ct => is_opt (fst ct)) l then ["exist"%string] else [])) ->
      Forall (fun ct => c_name (k_c (fst ct))) l -> NoDup (map fst vals) ->
      (forall c t v, In (c, t) l -> In (k_name c, v) vals -> tame t v) ->
      (forall c t dv, In (c, t) l -> k_opt c = Some (Some dv) -> ~ given (k_name c) vals -> tame t dv) ->
      (forall c t, In (c, t) l -> k_opt c = None -> given (k_name c) vals) ->
      (l = [] /\ gnu = true \/
       exists c t, In (c, t) l /\ (given (k_name c) vals \/ exists dv, k_opt c = Some (Some dv))) ->
      tame (TSeq l) (PSeq vals)
  | m_choice : forall l i a t v k, nth_error l i = Some (a, t) -> NoDup (map (fun at' => a_name (fst at')) l) ->
      NoDup (map (fun at' => a_c (fst at')) l) -> c_name (a_c a) -> c_name (a_present a) ->
      env (a_present a) = Some (k, Z.of_nat i + 1) -> Z.of_nat i + 1 < 2 ^ 31 -> tame t v ->
      tame (TChoice l) (PChoice (a_name a) v).
End Tame.
(** The printed definition is C and defines an object that represents the value. *)
Definition right_constant (ws : Z) (env : cenv) (gnu : bool) (T x : string) (t : pty) (v : pval) : Prop :=
  exists text i d, print_assignment T x t v = Some text /\ declares gnu text T x i /\
    (forall i', declares gnu text T x i' -> i' = i) /\
    initialise env (declared ws t) i = Some d /\ repr t v d.
