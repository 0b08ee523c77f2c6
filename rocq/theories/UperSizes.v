(** The bounds of the encoding size computed by the front end, uperMinSizeInBits
    and uperMaxSizeInBits (FrontEndAst/AcnCreateFromAntlr.fs), for an integer size
    of 8 bytes and the default maximal length 20 of object identifiers. *)
From Verif Require Import Bits UperTypes.

(** GetNumberOfBitsForNonNegativeInteger, CommonTypes/FsUtils.fs:528-546: the
    first i in 1..100 with a <= 2^i - 1. The exception for more than 100 bits is
    represented by 0. *)
Fixpoint first_pow (k : nat) (i a : Z) : Z :=
  match k with
  | O => 0
  | S k' => if 2 ^ i - 1 <? a then first_pow k' (i + 1) a else i
  end.
Definition gnb (a : Z) : Z := if 0 <? a then first_pow 100 1 a else 0.

(** getRequiredBitsForIntUperEncoding, FrontEndAst/uPER.fs:270-273 *)
Definition range_size (r : range) : Z * Z :=
  match r with
  | Concrete a b => (gnb (b - a), gnb (b - a))
  | Full | PosInf _ | NegInf _ => (8, (8 + 1) * 8)
  end.
(** AcnCreateFromAntlr.fs:260-265. The range of an extensible constraint is Full
    (FrontEndAst/uPER.fs:21-22). *)
Definition int_size (i : ispec) : Z * Z :=
  match i with
  | INoExt r => range_size r
  | IExt _ | IExt2 _ _ => let (mn, mx) := range_size Full in (1 + mn, 1 + mx)
  end.

(** getSizeableTypeSize, FrontEndAst/uPER.fs:275-280; [s1 s2]: minimal and maximal
    size of an item. *)
Definition min_sized (a b s : Z) : Z :=
  if (a =? b) && (b <? 65536) then a * s
  else a * s + gnb (b - a).
Definition max_sized (a b s : Z) : Z :=
  if (a =? b) && (b <? 65536) then b * s
  else if b <? 65536 then b * s + gnb (b - a)
  else b * s + (b / 65536 + 3) * 8.

(** AcnCreateFromAntlr.fs:445 *)
Definition char_size (a : option (list Z)) : Z :=
  gnb (match a with None => 128 | Some l => Z.of_nat (length l) end - 1).
(** GetChoiceUperDeterminantLengthInBits, CommonTypes/FsUtils.fs:555-558 *)
Definition index_size (n : Z) : Z := if 1 <? n then gnb (n - 1) else 0.

Fixpoint optionals (fs : fields) : Z :=
  match fs with
  | FNil => 0
  | FCons Mandatory _ fs => optionals fs
  | FCons _ _ fs => 1 + optionals fs
  end.
(** toByte, AcnCreateFromAntlr.fs:1577 *)
Definition to_byte (n : Z) : Z := n / 8 + (if n mod 8 =? 0 then 0 else 1).

Definition item_size (bits : bool) : Z := if bits then 1 else 8.

(** AcnCreateFromAntlr.fs: REAL 332-333, OBJECT IDENTIFIER 358-362, string 445-447, OCTET STRING
    507, BIT STRING 559 (without the redefinition of uperMaxSizeInBits in 560,
    see [bit_max]), ENUMERATED 773, SEQUENCE OF 1185, SEQUENCE 1339-1342 and 1377,
    CHOICE 1488-1490 and 1509, references 1580-1612. *)
Fixpoint umax (t : ty) : Z :=
  match t with
  | TBool => 1
  | TNull => 0
  | TInt i _ _ => snd (int_size i)
  | TEnum items _ => gnb (Z.of_nat (length items) - 1)
  | TOid _ => 16 * 8 * 20 + 16
  | TReal _ => (5 + 8) * 8
  | TStr a min max => max_sized min max (char_size a)
  | TOct min max => max_sized min max 8
  | TBit min max => max_sized min max 1
  | TSeqOf t min max => max_sized min max (umax t)
  | TSeq fs => optionals fs + umax_fields fs
  | TChoice cs => index_size (Z.of_nat (alts_len cs)) + umax_alts cs
  | TRef _ t => umax t
  | TCont bits min max _ _ => max_sized min max (item_size bits)
  end
with umax_fields (fs : fields) : Z :=
  match fs with FNil => 0 | FCons _ t fs => umax t + umax_fields fs end
with umax_alts (cs : alts) : Z :=
  match cs with
  | ANil => 0
  | ACons t ANil => umax t
  | ACons t cs => Z.max (umax t) (umax_alts cs)
  end.

Fixpoint umin (t : ty) : Z :=
  match t with
  | TBool => 1
  | TNull => 0
  | TInt i _ _ => fst (int_size i)
  | TEnum items _ => gnb (Z.of_nat (length items) - 1)
  | TOid _ => 16
  | TReal _ => 8
  | TStr a min max => min_sized min max (char_size a)
  | TOct min max => min_sized min max 8
  | TBit min max => min_sized min max 1
  | TSeqOf t min max => min_sized min max (umin t)
  | TSeq fs => optionals fs + umin_fields fs
  | TChoice cs => index_size (Z.of_nat (alts_len cs)) + umin_alts cs
  | TRef _ t => umin t
  | TCont bits min max _ _ => min_sized min max (item_size bits)
  end
with umin_fields (fs : fields) : Z :=
  match fs with
  | FNil => 0
  | FCons Mandatory t fs => umin t + umin_fields fs
  | FCons _ _ fs => umin_fields fs
  end
with umin_alts (cs : alts) : Z :=
  match cs with
  | ANil => 0
  | ACons t ANil => umin t
  | ACons t cs => Z.min (umin t) (umin_alts cs)
  end.

(** The size of the buffer to encode t, REQUIRED_BYTES_FOR_ENCODING
    (BackendAst/DAstUPer.fs:108) *)
Definition required_bytes (t : ty) : Z := (umax t + 7) / 8.

(** The parameters of CONTAINING types inside t are those computed by the front
    end (AcnCreateFromAntlr.fs:1584-1612; DAstUPer.fs:910-925). *)
Fixpoint computed (t : ty) : Prop :=
  match t with
  | TSeqOf t _ _ | TRef _ t => computed t
  | TSeq fs => computed_fields fs
  | TChoice cs => computed_alts cs
  | TCont bits min max req t =>
      computed t /\ req = required_bytes t /\
      if bits then min = umin t /\ max = umax t
      else min = to_byte (umin t) /\ max = to_byte (umax t)
  | _ => True
  end
with computed_fields (fs : fields) : Prop :=
  match fs with FNil => True | FCons _ t fs => computed t /\ computed_fields fs end
with computed_alts (cs : alts) : Prop :=
  match cs with ANil => True | ACons t cs => computed t /\ computed_alts cs end.

(** uperMaxSizeInBits of a BIT STRING as stored: AcnCreateFromAntlr.fs:560 redefines
    it from the bounds [amin amax] that take WITH COMPONENTS constraints into
    account, while the encoding uses [umin umax] of its own constraints. *)
Definition bit_max (umin umax amin amax : Z) : Z := max_sized amin amax 1.
