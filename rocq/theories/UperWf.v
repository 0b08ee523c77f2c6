(** Conditions under which the theorems about the generated uPER code hold: what
    the front end guarantees about types, and per-value side conditions. *)
From Verif Require Import Base Bits StrSpec Contracts Oid RealSpec UperTypes UperSpec Uper.
From Coq Require Import Sorting.Sorted.

Definition wf_range64 (r : range) : Prop :=
  match r with
  | Concrete a b => a <= b /\ is_s64 a /\ is_s64 b
  | PosInf a => is_s64 a
  | NegInf _ | Full => True
  end.

(** The C type selected for the range (Asn1AcnAstUtilFunctions.fs:347-385). *)
Definition wf_int (i : ispec) (p : bool) (w : Z) : Prop :=
  match i with
  | INoExt (Concrete a b) => (w = 8 \/ w = 16 \/ w = 32 \/ w = 64) /\ a <= b /\ in_class p w a /\ in_class p w b
  | INoExt (PosInf a) => w = 64 /\ p = (0 <=? a) /\ in_class p 64 a
  | INoExt (NegInf _) | INoExt Full => w = 64 /\ p = false
  | IExt r | IExt2 r _ => w = 64 /\ p = false /\ wf_range64 r
  end.

Definition wf_size (min max : Z) : Prop := 0 <= min <= max /\ max < 2 ^ 31.

Definition wf_alpha (a : option (list Z)) : Prop :=
  match a with
  | None => True
  | Some l => l <> [] /\ NoDup l /\ Z.of_nat (length l) < 128
  end.

(** [eff] table: sorted, with the same items. *)
Definition wf_enum (items : list Z) (eff : option (list Z)) : Prop :=
  items <> [] /\ NoDup items /\ Z.of_nat (length items) < 2 ^ 31 /\
  match eff with
  | None => True
  | Some a => StronglySorted Z.lt a /\ length a = length items /\ (forall x, In x items <-> In x a)
  end.

Fixpoint wft (t : ty) : Prop :=
  match t with
  | TBool | TNull | TOid _ | TReal _ => True
  | TInt i p w => wf_int i p w
  | TEnum items eff => wf_enum items eff
  | TStr a min max => wf_alpha a /\ wf_size min max
  | TOct min max | TBit min max => wf_size min max
  | TSeqOf t min max => wf_size min max /\ wft t
  | TSeq fs => wf_fields fs
  | TChoice cs => cs <> ANil /\ Z.of_nat (alts_len cs) < 2 ^ 31 /\ wf_alts cs
  | TRef _ t => wft t
  | TCont _ min max req t => wf_size min max /\ wft t
  end
with wf_fields (fs : fields) : Prop :=
  match fs with
  | FNil => True
  | FCons o t fs =>
      wft t /\ wf_fields fs /\
      (* NULL-like types with a DEFAULT clause are left out *)
      match o with Default _ => silent t = false | _ => True end
  end
with wf_alts (cs : alts) : Prop :=
  match cs with ANil => True | ACons t cs => wft t /\ wf_alts cs end.

(** ** Per-value side conditions *)
Inductive leaf :=
| LInt (i : ispec) (p : bool) (z : Z)
| LReal (x : double)
| LCont (bits : bool) (min max req : Z) (bs : list bool).

(** The integers, REAL and CONTAINING values inside a value. *)
Fixpoint leaves (t : ty) (v : value) {struct t} : list leaf :=
  match t, v with
  | TInt i p _, VInt z => [LInt i p z]
  | TReal f, VReal x => [LReal (widen f x)]
  | TSeqOf t _ _, VSeqOf l => flat_map (leaves t) l
  | TSeq fs, VSeq l => leaves_fields fs l
  | TChoice cs, VChoice i v => leaves_alt cs i v
  | TRef _ t, v => leaves t v
  | TCont bits min max req t, v => LCont bits min max req (ubits false t v) :: leaves t v
  | _, _ => []
  end
with leaves_fields (fs : fields) (l : list (bool * option value)) {struct fs} : list leaf :=
  match fs, l with
  | FCons _ t fs, (e, v) :: l =>
      (match e, v with true, Some v => leaves t v | _, _ => [] end) ++ leaves_fields fs l
  | _, _ => []
  end
with leaves_alt (cs : alts) (i : nat) (v : value) {struct cs} : list leaf :=
  match cs, i with
  | ANil, _ => []
  | ACons t _, O => leaves t v
  | ACons _ cs, S i => leaves_alt cs i v
  end.

(** Signed arithmetic in the integer coder does not overflow, or wraps. *)
Definition range_side (c : cfg) (r : range) (p x : bool) (z : Z) : Prop :=
  match r with
  | Concrete a b => a = b \/ p && negb x = true \/ sfits c (b - a)
  | PosInf a => (0 <=? a) && negb x = true \/ shl_wrap c = true /\ sfits c (z - a) \/ is_s64 (z - a)
  | NegInf _ | Full => sfits c (- z) /\ (shl_wrap c = true \/ 0 <= z)
  end.
(** The decoder shifts a negative exponent left, undefined in ISO C. Contained
    encodings respect the sizes computed by the front end. *)
Definition side (c : cfg) (lf : leaf) : Prop :=
  match lf with
  | LInt (INoExt r) p z => range_side c r p false z
  | LInt (IExt r) p z => range_side c r p true z
  | LInt (IExt2 r isr) p z =>
      if isr z then range_side c r p true z else range_side c Full p true z
  | LReal x => shl_wrap c = true \/ match x with S754_finite _ _ e => 0 <= e | _ => True end
  | LCont bits min max req bs =>
      let n := Z.of_nat (length bs) in
      0 < n <= 8 * req /\
      if bits then min <= n <= max else min <= (n + 7) / 8 <= max
  end.
Definition sides (c : cfg) (t : ty) (v : value) : Prop := Forall (side c) (leaves t v).
