(** Choice of the ACN encoding of an INTEGER by the compiler, and its check that the
    values of the type fit: FrontEndAst/AcnEncodingClasses.fs,
    FrontEndAst/AcnCreateFromAntlr.fs, FrontEndAst/CheckLongReferences.fs. None is a
    rejected specification (SemanticError or another exception); warnings and error
    texts are dropped. *)
From Verif Require Import Base UperTypes Constraints AcnGen.

(** AcnGenericTypes.fs: IntegerAcnProperties and the types of its fields; the
    mapping function only by its presence. *)
Inductive enc_prop := PosInt | TwosComplement | IntAscii | BCD.
Inductive size_prop := Fixed (n : Z) | IntNullTerminated (p : list Z).
Inductive endianness := LittleEndianness | BigEndianness.
Record int_props := mkprops {
  encodingProp : option enc_prop;
  sizeProp : option size_prop;
  endiannessProp : option endianness;
  mappingFunction : bool
}.
(** Asn1AcnAst.fs:315-338: IntEncodingClass *)
Inductive enc_class :=
| Integer_uPER
| PositiveInteger_ConstSize_8
| PositiveInteger_ConstSize_big_endian_16
| PositiveInteger_ConstSize_big_endian_32
| PositiveInteger_ConstSize_big_endian_64
| PositiveInteger_ConstSize_little_endian_16
| PositiveInteger_ConstSize_little_endian_32
| PositiveInteger_ConstSize_little_endian_64
| PositiveInteger_ConstSize (n : Z)
| TwosComplement_ConstSize_8
| TwosComplement_ConstSize_big_endian_16
| TwosComplement_ConstSize_big_endian_32
| TwosComplement_ConstSize_big_endian_64
| TwosComplement_ConstSize_little_endian_16
| TwosComplement_ConstSize_little_endian_32
| TwosComplement_ConstSize_little_endian_64
| TwosComplement_ConstSize (n : Z)
| ASCII_ConstSize (n : Z)
| ASCII_VarSize_NullTerminated (p : list Z)
| ASCII_UINT_ConstSize (n : Z)
| ASCII_UINT_VarSize_NullTerminated (p : list Z)
| BCD_ConstSize (n : Z)
| BCD_VarSize_NullTerminated (p : list Z).

(** getIntSizeProperty, AcnCreateFromAntlr.fs:39-56, for "size null-terminated":
    [pat] is the termination-pattern, [bits] its length in bits. *)
Definition null_terminated (pat : option (list Z * Z)) : option size_prop :=
  match pat with
  | None => Some (IntNullTerminated [0])
  | Some (ba, bits) =>
      if negb (bits mod 8 =? 0) then None
      else if 10 <? Z.of_nat (length ba) then None
      else Some (IntNullTerminated ba)
  end.

(** getAlignmentSize, AcnEncodingClasses.fs:11-16; [a] is 1 (no alignment), 8, 16 or 32 *)
Definition alignment_size (a : Z) : Z := a - 1.

(** AcnEncodingClasses.fs:35-42: lengths of UInt64.MaxValue .. Int32.MaxValue in
    decimal; [isz] is integerSizeInBytes. *)
Definition maxDigitsInInteger (isz : Z) (uns : bool) : option Z :=
  if isz =? 8 then Some (if uns then 20 else 19)
  else if isz =? 4 then Some 10
  else None.

(** GetIntEncodingClass, AcnEncodingClasses.fs:34-124, in the order of its cases;
    class, minSizeInBits, maxSizeInBits. *)
Definition GetIntEncodingClass (isz align : Z) (p : int_props) (umin umax : Z) (uns : bool)
  : option (enc_class * Z * Z) :=
  match maxDigitsInInteger isz uns with
  | None => None
  | Some digits =>
    let r :=
      match encodingProp p, sizeProp p, endiannessProp p with
      | None, None, None => Some (Integer_uPER, umin, umax)
      | None, _, _ => None
      | _, None, _ => None
      | Some enc, Some size, e =>
        let big := match e with Some LittleEndianness => false | _ => true end in
        let maxFx := isz * 8 in
        match enc, size with
        | PosInt, Fixed n =>
            if negb uns then None
            else if n =? 8 then Some (PositiveInteger_ConstSize_8, 8, 8)
            else if n =? 16 then
              Some (if big then PositiveInteger_ConstSize_big_endian_16 else PositiveInteger_ConstSize_little_endian_16, 16, 16)
            else if n =? 32 then
              Some (if big then PositiveInteger_ConstSize_big_endian_32 else PositiveInteger_ConstSize_little_endian_32, 32, 32)
            else if n =? 64 then
              Some (if big then PositiveInteger_ConstSize_big_endian_64 else PositiveInteger_ConstSize_little_endian_64, 64, 64)
            else if negb big then None
            else if maxFx <? n then None
            else Some (PositiveInteger_ConstSize n, n, n)
        | PosInt, IntNullTerminated _ => None
        | TwosComplement, Fixed n =>
            if uns then None
            else if n =? 8 then Some (TwosComplement_ConstSize_8, 8, 8)
            else if n =? 16 then
              Some (if big then TwosComplement_ConstSize_big_endian_16 else TwosComplement_ConstSize_little_endian_16, 16, 16)
            else if n =? 32 then
              Some (if big then TwosComplement_ConstSize_big_endian_32 else TwosComplement_ConstSize_little_endian_32, 32, 32)
            else if n =? 64 then
              Some (if big then TwosComplement_ConstSize_big_endian_64 else TwosComplement_ConstSize_little_endian_64, 64, 64)
            else if negb big then None
            else if maxFx <? n then None
            else Some (TwosComplement_ConstSize n, n, n)
        | TwosComplement, IntNullTerminated _ => None
        | IntAscii, Fixed n =>
            if negb big then None
            else if digits * 8 + 8 <? n then None
            else if negb (Z.rem n 8 =? 0) then None
            else Some (if uns then ASCII_UINT_ConstSize n else ASCII_ConstSize n, n, n)
        | BCD, Fixed n =>
            if negb big then None
            else if digits * 4 <? n then None
            else if negb (Z.rem n 4 =? 0) then None
            else Some (BCD_ConstSize n, n, n)
        | BCD, IntNullTerminated b =>
            if negb big then None
            else Some (BCD_VarSize_NullTerminated b, 4, 4 + digits * 4)
        | IntAscii, IntNullTerminated b =>
            let l := Z.of_nat (length b) * 8 in
            if negb big then None
            else Some (if uns then (ASCII_UINT_VarSize_NullTerminated b, l, l + digits * 8)
                       else (ASCII_VarSize_NullTerminated b, l, l + 8 + 8 + digits * 8))
        end
      end in
    match r with
    | Some (k, mn, mx) => Some (k, mn, mx + alignment_size align)
    | None => None
    end
  end.

(** BigInteger.Pow: a negative exponent is an ArgumentOutOfRangeException. *)
Definition Pow (b e : Z) : option Z := if e <? 0 then None else Some (b ^ e).

(** checkIntHasEnoughSpace, AcnCreateFromAntlr.fs:171-220; false: rejected. *)
Definition check_ (minEnc maxEnc : option Z) (asn1Min asn1Max : Z) : bool :=
  match minEnc, maxEnc with
  | Some a, Some b => (a <=? asn1Min) && (asn1Max <=? b)
  | _, _ => false
  end.
Definition checkBinary (uns : bool) (n asn1Min asn1Max : Z) : bool :=
  if uns then check_ (Some 0) (option_map Z.pred (Pow 2 n)) asn1Min asn1Max
  else check_ (option_map Z.opp (Pow 2 (n - 1))) (option_map Z.pred (Pow 2 (n - 1))) asn1Min asn1Max.
Definition checkAscii (uns : bool) (n asn1Min asn1Max : Z) : bool :=
  let digits := Z.quot n 8 in
  if uns then check_ (Some 0) (option_map Z.pred (Pow 10 digits)) asn1Min asn1Max
  else check_ (option_map Z.opp (Pow 10 (digits - 1))) (option_map Z.pred (Pow 10 (digits - 1))) asn1Min asn1Max.
Definition checkBCD (n asn1Min asn1Max : Z) : bool :=
  check_ (Some 0) (option_map Z.pred (Pow 10 (Z.quot n 4))) asn1Min asn1Max.
Definition checkIntHasEnoughSpace (k : enc_class) (mf : bool) (asn1Min asn1Max : Z) : bool :=
  if mf then true
  else match k with
  | Integer_uPER => true
  | PositiveInteger_ConstSize_8 => checkBinary true 8 asn1Min asn1Max
  | PositiveInteger_ConstSize_big_endian_16 => checkBinary true 16 asn1Min asn1Max
  | PositiveInteger_ConstSize_little_endian_16 => checkBinary true 16 asn1Min asn1Max
  | PositiveInteger_ConstSize_big_endian_32 => checkBinary true 32 asn1Min asn1Max
  | PositiveInteger_ConstSize_little_endian_32 => checkBinary true 32 asn1Min asn1Max
  | PositiveInteger_ConstSize_big_endian_64 => checkBinary true 64 asn1Min asn1Max
  | PositiveInteger_ConstSize_little_endian_64 => checkBinary true 64 asn1Min asn1Max
  | PositiveInteger_ConstSize n => checkBinary true n asn1Min asn1Max
  | TwosComplement_ConstSize_8 => checkBinary false 8 asn1Min asn1Max
  | TwosComplement_ConstSize_big_endian_16 => checkBinary false 16 asn1Min asn1Max
  | TwosComplement_ConstSize_little_endian_16 => checkBinary false 16 asn1Min asn1Max
  | TwosComplement_ConstSize_big_endian_32 => checkBinary false 32 asn1Min asn1Max
  | TwosComplement_ConstSize_little_endian_32 => checkBinary false 32 asn1Min asn1Max
  | TwosComplement_ConstSize_big_endian_64 => checkBinary false 64 asn1Min asn1Max
  | TwosComplement_ConstSize_little_endian_64 => checkBinary false 64 asn1Min asn1Max
  | TwosComplement_ConstSize n => checkBinary false n asn1Min asn1Max
  | ASCII_ConstSize n => checkAscii false n asn1Min asn1Max
  | ASCII_VarSize_NullTerminated _ => true
  | ASCII_UINT_ConstSize n => checkAscii false n asn1Min asn1Max
  | ASCII_UINT_VarSize_NullTerminated _ => true
  | BCD_ConstSize n => checkBCD n asn1Min asn1Max
  | BCD_VarSize_NullTerminated _ => true
  end.

(** createAcnIntegerFunctionInternal, BackendAst/Acn/AcnPrimitives.fs:107-133: the
    functions called for a class; None for the uPER body. *)
Definition class_codec (k : enc_class) : option icodec :=
  match k with
  | Integer_uPER => None
  | PositiveInteger_ConstSize_8 => Some KPos8
  | PositiveInteger_ConstSize_big_endian_16 => Some (KPosBE 2)
  | PositiveInteger_ConstSize_little_endian_16 => Some (KPosLE 2)
  | PositiveInteger_ConstSize_big_endian_32 => Some (KPosBE 4)
  | PositiveInteger_ConstSize_little_endian_32 => Some (KPosLE 4)
  | PositiveInteger_ConstSize_big_endian_64 => Some (KPosBE 8)
  | PositiveInteger_ConstSize_little_endian_64 => Some (KPosLE 8)
  | PositiveInteger_ConstSize n => Some (KPos n)
  | TwosComplement_ConstSize_8 => Some KTwos8
  | TwosComplement_ConstSize_big_endian_16 => Some (KTwosBE 2)
  | TwosComplement_ConstSize_little_endian_16 => Some (KTwosLE 2)
  | TwosComplement_ConstSize_big_endian_32 => Some (KTwosBE 4)
  | TwosComplement_ConstSize_little_endian_32 => Some (KTwosLE 4)
  | TwosComplement_ConstSize_big_endian_64 => Some (KTwosBE 8)
  | TwosComplement_ConstSize_little_endian_64 => Some (KTwosLE 8)
  | TwosComplement_ConstSize n => Some (KTwos n)
  | ASCII_ConstSize n => Some (KText (Z.quot n 8))
  | ASCII_VarSize_NullTerminated p => Some (KTextNull p)
  | ASCII_UINT_ConstSize n => Some (KUText (Z.quot n 8))
  | ASCII_UINT_VarSize_NullTerminated p => Some (KUTextNull p)
  | BCD_ConstSize n => Some (KBcd (Z.quot n 4))
  | BCD_VarSize_NullTerminated _ => Some KBcdNull
  end.

(** mergeInteger, AcnCreateFromAntlr.fs:279-287: asn1Min, asn1Max; [isz] as above *)
Definition asn1_limits (isz : Z) (r : range) : Z * Z :=
  let w := 8 * isz in
  match r with
  | Concrete a b => (a, b)
  | NegInf b => (- 2 ^ (w - 1), b)
  | UperTypes.PosInf a => if 0 <=? a then (a, 2 ^ w - 1) else (a, 2 ^ (w - 1) - 1)
  | Full => (- 2 ^ (w - 1), 2 ^ (w - 1) - 1)
  end.
(** mergeInteger, AcnCreateFromAntlr.fs:240-311: [r] is the range of all constraints,
    [rt] that of the type whose C type is used; class, sizes, C type. *)
Definition mergeInteger (slim : bool) (isz align : Z) (p : int_props) (r rt : range) (umin umax : Z)
  : option (enc_class * Z * Z * (bool * Z)) :=
  let cls := int_class slim (8 * isz) rt in
  match GetIntEncodingClass isz align p umin umax (fst cls) with
  | None => None
  | Some (k, mn, mx) =>
      let (a, b) := asn1_limits isz r in
      if checkIntHasEnoughSpace k (mappingFunction p) a b then Some (k, mn, mx, cls) else None
  end.

(** mergeEnumerated, AcnCreateFromAntlr.fs:782-793, with GetEnumeratedEncodingClass,
    AcnEncodingClasses.fs:127-136: [vals] are the acnEncodeValue of the items, [ev]
    the property encode-values, [ub] the uPER size of the index and [vb] that of the
    values (sizes for class uPER). *)
Definition mergeEnumerated (isz align : Z) (p : int_props) (vals : list Z) (ev : bool) (ub vb : Z)
  : option (enc_class * Z * Z) :=
  match vals with
  | [] => None
  | v :: l =>
      let mn := fold_right Z.min v l in
      let mx := fold_right Z.max v l in
      match (if ev then GetIntEncodingClass isz align p vb vb (0 <=? mn)
             else GetIntEncodingClass isz align p ub ub true) with
      | None => None
      | Some (k, a, b) => if checkIntHasEnoughSpace k false mn mx then Some (k, a, b) else None
      end
  end.

(** An ACN field INTEGER used as size of a type of [lo] to [hi] elements:
    mapAcnParamTypeToAcnAcnInsertedType, AcnCreateFromAntlr.fs:906-926, and
    sizeReference, CheckLongReferences.fs:146-149. Such a field has 64 bits. *)
Definition size_field (isz align : Z) (p : int_props) (lo hi : Z) : option (enc_class * Z * Z) :=
  match encodingProp p with
  | None => None
  | Some e =>
      let uns := match e with PosInt | BCD => true | TwosComplement | IntAscii => false end in
      match GetIntEncodingClass isz align p 0 0 uns with
      | None => None
      | Some (k, mn, mx) => if checkIntHasEnoughSpace k (mappingFunction p) lo hi then Some (k, mn, mx) else None
      end
  end.
(** The same for an ACN field of a type MyInt ::= INTEGER with range [r],
    AcnCreateFromAntlr.fs:962-994: class, sizes, C type. *)
Definition size_field_ref (slim : bool) (isz align : Z) (p : int_props) (r : range) (umin umax lo hi : Z)
  : option (enc_class * Z * Z * (bool * Z)) :=
  let uns :=
    match encodingProp p with
    | Some PosInt | Some BCD => true
    | Some TwosComplement | Some IntAscii => false
    | None => match r with Concrete a _ => 0 <=? a | UperTypes.PosInf a => 0 <=? a | NegInf _ | Full => false end
    end in
  match GetIntEncodingClass isz align p umin umax uns with
  | None => None
  | Some (k, mn, mx) =>
      if checkIntHasEnoughSpace k (mappingFunction p) lo hi then Some (k, mn, mx, int_class slim (8 * isz) r) else None
  end.
