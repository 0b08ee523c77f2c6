(** Specification of the uPER encoding of the types of UperTypes.v (X.691),
    independent of the model of the code. *)
From Verif Require Import Bits StrSpec RealSpec UperTypes.
From Coq Require Import Sorting.Sorted.

(** ** Integers *)

Definition in_range (r : range) (v : Z) : Prop :=
  match r with
  | Concrete a b => a <= v <= b
  | PosInf a => a <= v
  | NegInf b => v <= b
  | Full => True
  end.

(** Values of the C type: unsigned or signed on w bits. *)
Definition in_class (p : bool) (w v : Z) : Prop :=
  if p then 0 <= v < 2 ^ w else - 2 ^ (w - 1) <= v < 2 ^ (w - 1).

Definition valid_int (i : ispec) (v : Z) : Prop :=
  match i with
  | INoExt r | IExt r => in_range r v
  | IExt2 r isr => isr v = true -> in_range r v
  end.

(** X.691 13.2: constrained, semi-constrained, unconstrained whole number. *)
Definition range_bits (r : range) (v : Z) : list bool :=
  match r with
  | Concrete a b => Zbits (crange a b) (v - a)
  | PosInf a => semi_bits (v - a)
  | NegInf _ | Full => unc_bits v
  end.
(** X.691 13.1: one bit tells whether the value is outside the extension root. *)
Definition int_bits (i : ispec) (v : Z) : list bool :=
  match i with
  | INoExt r => range_bits r v
  | IExt r => [false] ++ range_bits r v
  | IExt2 r isr => if isr v then [false] ++ range_bits r v else [true] ++ unc_bits v
  end.

(** ** Enumerated: position of an item *)
Fixpoint index (v : Z) (l : list Z) : Z :=
  match l with
  | [] => 0
  | x :: t => if x =? v then 0 else 1 + index v t
  end.
(** Position in ascending order. *)
Definition rank (v : Z) (l : list Z) : Z := Z.of_nat (length (filter (fun x => x <? v) l)).

(** ** Subidentifiers of object identifiers (X.690 8.19) *)
Fixpoint subid_from (n : nat) (v : Z) : list Z :=
  match n with
  | O => []
  | S m => ((v / 128 ^ Z.of_nat m) mod 128 + (if Z.of_nat m =? 0 then 0 else 128)) :: subid_from m v
  end.
Definition subid (v : Z) : list Z := subid_from (Z.to_nat (Z.max 1 ((nbits v + 6) / 7))) v.
Definition oid_arcs (rel : bool) (l : list Z) : list Z :=
  if rel then l else match l with a :: b :: r => 40 * a + b :: r | _ => [] end.
Definition valid_oid (rel : bool) (l : list Z) : Prop :=
  (length l <= 20)%nat /\ Forall (fun x => 0 <= x < 2 ^ 64) (oid_arcs rel l) /\
  if rel then l <> []
  else match l with
       | a :: b :: _ => 0 <= a /\ 0 <= b < 40
       | _ => False
       end.
Definition oid_bits (rel : bool) (l : list Z) : list bool :=
  frag (octets (concat (map subid (oid_arcs rel l)))).

(** ** REAL. Values of the C type that survive (see C12): no -0, and for double no
    magnitude below 2^-971. [std]: X.690 11.3.1, odd mantissa; otherwise the
    mantissa of 53 bits. *)
Definition valid_real (f : bool) (x : double) : Prop :=
  if f then is_float x /\ x <> S754_zero true else is_double x /\ kept x.
Definition widen (f : bool) (x : double) : double := if f then float_to_double x else x.
Fixpoint odd_part (m : positive) (e : Z) : positive * Z :=
  match m with xO m' => odd_part m' (e + 1) | _ => (m, e) end.
Definition reduce (x : double) : double :=
  match x with
  | S754_finite s m e => let (m, e) := odd_part m e in S754_finite s m e
  | _ => x
  end.

(** ** Characters. [std]: X.691 30.5.4, the value itself when it fits in the
    width, otherwise the position in the alphabet. Without [std]: always the
    position. *)
Definition in_alpha (a : option (list Z)) (ch : Z) : Prop :=
  match a with None => 0 <= ch <= 127 | Some l => In ch l end.
Definition char_bits (std : bool) (a : option (list Z)) (ch : Z) : list bool :=
  match a with
  | None => Zbits 7 ch
  | Some l =>
      let n := crange 0 (Z.of_nat (length l) - 1) in
      if std then
        if fold_right Z.max 0 l <? 2 ^ Z.of_nat n then Zbits n ch else Zbits n (rank ch l)
      else Zbits n (index ch l)
  end.

(** ** Lengths. [std]: X.691 11.9. Without [std]: for a fixed number of items of
    64K or more the final length octet is left out when there is no item after
    the last block. *)
Fixpoint ffrag_bits (fuel : nat) (items : list (list bool)) : list bool :=
  match fuel with
  | O => []
  | S f =>
      let n := Z.of_nat (length items) in
      if n =? 0 then []
      else if n <=? 127 then Zbits 8 n ++ concat items
      else if n <? 16384 then [true; false] ++ Zbits 14 n ++ concat items
      else
        let k := Z.min 4 (n / 16384) in
        [true; true] ++ Zbits 6 k ++
        concat (firstn (Z.to_nat (k * 16384)) items) ++
        ffrag_bits f (skipn (Z.to_nat (k * 16384)) items)
  end.
Definition ffrag (items : list (list bool)) : list bool := ffrag_bits (S (length items)) items.
Definition usized (std : bool) (min max : Z) (items : list (list bool)) : list bool :=
  if negb std && (min =? max) && (65536 <=? max) then ffrag items else sized min max items.

(** ** Values of a type *)
Definition size_in (min max : Z) (n : nat) : Prop := min <= Z.of_nat n <= max.

(** What the decoder returns for an encoded value: the contents of an absent
    component are the default value, if any, and not set otherwise. *)
Fixpoint norm (t : ty) (v : value) {struct t} : value :=
  match t, v with
  | TSeqOf t _ _, VSeqOf l => VSeqOf (map (norm t) l)
  | TSeq fs, VSeq l => VSeq (norm_fields fs l)
  | TChoice cs, VChoice i v => VChoice i (norm_alt cs i v)
  | TRef _ t, v => norm t v
  | TCont _ _ _ _ t, v => norm t v
  | _, v => v
  end
with norm_fields (fs : fields) (l : list (bool * option value)) {struct fs} : list (bool * option value) :=
  match fs, l with
  | FCons o t fs, (e, v) :: l =>
      (match e, v, o with
       | true, Some v, _ => (true, Some (norm t v))
       | true, None, _ => (true, None)
       | false, _, Default d => (false, Some d)
       | false, _, _ => (false, None)
       end) :: norm_fields fs l
  | _, _ => []
  end
with norm_alt (cs : alts) (i : nat) (v : value) {struct cs} : value :=
  match cs, i with
  | ANil, _ => v
  | ACons t _, O => norm t v
  | ACons _ cs, S i => norm_alt cs i v
  end.

Fixpoint valid (t : ty) (v : value) {struct t} : Prop :=
  match t, v with
  | TBool, VBool _ => True
  | TNull, VNull => True
  | TInt i p w, VInt z => in_class p w z /\ valid_int i z
  | TEnum items _, VEnum z => In z items
  | TOid rel, VOid l => valid_oid rel l
  | TReal f, VReal x => valid_real f x
  | TStr a min max, VStr l =>
      size_in min max (length l) /\ Forall (in_alpha a) l /\
      (min <> max -> Forall (fun ch => ch <> 0) l)
  | TOct min max, VOct l => size_in min max (length l) /\ Forall (fun b => 0 <= b < 256) l
  | TBit min max, VBit l => size_in min max (length l)
  | TSeqOf t min max, VSeqOf l => size_in min max (length l) /\ Forall (valid t) l
  | TSeq fs, VSeq l => valid_fields fs l
  | TChoice cs, VChoice i v => valid_alt cs i v
  | TRef ok t, v => valid t v /\ ok (norm t v) = true
  | TCont _ _ _ _ t, v => valid t v
  | _, _ => False
  end
with valid_fields (fs : fields) (l : list (bool * option value)) {struct fs} : Prop :=
  match fs, l with
  | FNil, [] => True
  | FCons o t fs, (e, v) :: l =>
      (match o, e, v with
       | AlwaysAbsent, e, _ => e = false
       | _, true, Some v => valid t v
       | Optional, false, _ | Default _, false, _ => True
       | _, _, _ => False
       end) /\ valid_fields fs l
  | _, _ => False
  end
with valid_alt (cs : alts) (i : nat) (v : value) {struct cs} : Prop :=
  match cs, i with
  | ANil, _ => False
  | ACons t _, O => valid t v
  | ACons _ cs, S i => valid_alt cs i v
  end.

(** ** Encoding. X.691 19: one presence bit per optional component first; 23:
    position of the alternative; 12, 14, 16, 17, 20 for the others. With [std] a
    CONTAINING constraint does not bound the length (X.691 11.9, 17). *)
Definition presence (o : opt) (e : bool) : list bool :=
  match o with
  | Mandatory => []
  | Optional | Default _ => [e]
  | AlwaysAbsent => [false]
  | AlwaysPresent => [true]
  end.
Fixpoint presence_bits (fs : fields) (l : list (bool * option value)) : list bool :=
  match fs, l with
  | FCons o _ fs, (e, _) :: l => presence o e ++ presence_bits fs l
  | _, _ => []
  end.

Fixpoint ubits (std : bool) (t : ty) (v : value) {struct t} : list bool :=
  match t, v with
  | TBool, VBool b => [b]
  | TInt i _ _, VInt z => int_bits i z
  | TEnum items eff, VEnum z =>
      Zbits (crange 0 (Z.of_nat (length items) - 1))
        (if std then rank z items else index z (match eff with None => items | Some a => a end))
  | TOid rel, VOid l => oid_bits rel l
  | TReal f, VReal x => real_bits (if std then reduce (widen f x) else widen f x)
  | TStr a min max, VStr l => usized std min max (map (char_bits std a) l)
  | TOct min max, VOct l => usized std min max (octets l)
  | TBit min max, VBit l => usized std min max (single_bits l)
  | TSeqOf t min max, VSeqOf l => usized std min max (map (ubits std t) l)
  | TSeq fs, VSeq l => presence_bits fs l ++ fields_bits std fs l
  | TChoice cs, VChoice i v =>
      Zbits (crange 0 (Z.of_nat (alts_len cs) - 1)) (Z.of_nat i) ++ alt_bits std cs i v
  | TRef _ t, v => ubits std t v
  | TCont bits min max _ t, v =>
      let items := if bits then single_bits (ubits std t v) else octets (pack (ubits std t v)) in
      if std then frag items else sized min max items
  | _, _ => []
  end
with fields_bits (std : bool) (fs : fields) (l : list (bool * option value)) {struct fs} : list bool :=
  match fs, l with
  | FCons o t fs, (e, v) :: l =>
      (match e, v with true, Some v => ubits std t v | _, _ => [] end) ++ fields_bits std fs l
  | _, _ => []
  end
with alt_bits (std : bool) (cs : alts) (i : nat) (v : value) {struct cs} : list bool :=
  match cs, i with
  | ANil, _ => []
  | ACons t _, O => ubits std t v
  | ACons _ cs, S i => alt_bits std cs i v
  end.

(** Absent components hold their default value, or nothing when they have none;
    such values are returned unchanged. *)
Fixpoint settled (t : ty) (v : value) {struct t} : Prop :=
  match t, v with
  | TSeqOf t _ _, VSeqOf l => Forall (settled t) l
  | TSeq fs, VSeq l => settled_fields fs l
  | TChoice cs, VChoice i v => settled_alt cs i v
  | TRef _ t, v | TCont _ _ _ _ t, v => settled t v
  | _, _ => True
  end
with settled_fields (fs : fields) (l : list (bool * option value)) {struct fs} : Prop :=
  match fs, l with
  | FCons o t fs, (e, v) :: l =>
      (if e then match v with Some v => settled t v | None => True end
       else v = match o with Default d => Some d | _ => None end) /\ settled_fields fs l
  | _, _ => True
  end
with settled_alt (cs : alts) (i : nat) (v : value) {struct cs} : Prop :=
  match cs, i with
  | ANil, _ => True
  | ACons t _, O => settled t v
  | ACons _ cs, S i => settled_alt cs i v
  end.
