(** REAL codec, asn1crt/asn1crt_encoding.c:1060-1321 and 1803-1809, with
    FP_WORD_SIZE = 8 (asn1crt.h:49) and without USE_LDEXP. Arithmetic on doubles
    is that of the standard library's SpecFloat: IEEE 754 binary64, round to
    nearest even, one NaN. *)
From Verif Require Import Base BitStream Ints RealSpec.

(** Arithmetic on the C type int (32 bits). *)
Definition in_s32 (x : Z) : bool := (- 2 ^ 31 <=? x) && (x <? 2 ^ 31).
Definition ires (c : cfg) (x : Z) : outcome Z :=
  if in_s32 x then Ok x else if ovf_wrap c then Ok (s32 x) else UB.
Definition ishl (c : cfg) (x k : Z) : outcome Z :=
  let r := x * 2 ^ k in
  if (0 <=? x) && in_s32 r then Ok r else if shl_wrap c then Ok (s32 r) else UB.

(** The object representation of a double (IEEE 754 interchange format), as read
    through the union double2uint. *)
Definition double_bits (x : double) : Z :=
  match x with
  | S754_zero s => (if s then 2 ^ 63 else 0)
  | S754_infinity s => (if s then 2 ^ 63 else 0) + 2047 * 2 ^ 52
  | S754_nan => 2047 * 2 ^ 52 + 2 ^ 51
  | S754_finite s m e =>
      (if s then 2 ^ 63 else 0) +
      if Zpos m <? 2 ^ 52 then Zpos m else (e + 1075) * 2 ^ 52 + (Zpos m - 2 ^ 52)
  end.

(** CalculateMantissaAndExponent, asn1crt_encoding.c:1077-1110; the exponent is
    computed in asn1SccUint64 and converted to int. *)
Definition CalculateMantissaAndExponent (d : double) : Z * Z :=
  let ll := double_bits d in
  let e := s32 (u64 (Z.shiftr (Z.land ll 0x7FF0000000000000) 52 - 1023 - 52)) in
  (e, Z.lor (Z.land ll 0x000FFFFFFFFFFFFF) 0x0010000000000000).

(** The literals 1.0 and 2.0 *)
Definition one : double := S754_finite false 4503599627370496 (-52).
Definition two : double := S754_finite false 4503599627370496 (-51).

Definition dmul : double -> double -> double := SFmul 53 1024.
Definition ddiv : double -> double -> double := SFdiv 53 1024.

(** while (exponent) { ret = ret * 2.0; exponent--; } *)
Definition doublings (n : Z) : double :=
  match n with Zpos p => Pos.iter (fun r => dmul r two) one p | _ => one end.

(** GetDoubleByMantissaAndExp, asn1crt_encoding.c:1112-1137. For exponent
    INT_MIN, "-exponent" overflows; when it wraps the loop runs 2^31 times. *)
Definition GetDoubleByMantissaAndExp (c : cfg) (mantissa exponent : Z) : outcome double :=
  if mantissa =? 0 then Ok (S754_zero false)
  else
    let dm := binary_normalize 53 1024 mantissa 0 false in
    if 0 <=? exponent then Ok (dmul dm (doublings exponent))
    else obind (ires c (- exponent)) (fun n => Ok (ddiv dm (doublings (u32 n)))).

(** BitStream_EncodeReal, asn1crt_encoding.c:1142-1217. The test "v == 0.0" holds
    for both zeros. *)
Definition BitStream_EncodeReal (c : cfg) (v : double) : M unit :=
  match v with
  | S754_nan =>
      BitStream_EncodeConstraintWholeNumber c 1 0 0xFF ;;;
      BitStream_EncodeConstraintWholeNumber c 0x42 0 0xFF
  | S754_zero _ => BitStream_EncodeConstraintWholeNumber c 0 0 0xFF
  | S754_infinity s =>
      BitStream_EncodeConstraintWholeNumber c 1 0 0xFF ;;;
      BitStream_EncodeConstraintWholeNumber c (if s then 0x41 else 0x40) 0 0xFF
  | S754_finite s _ _ =>
      let header := if s then Z.lor 0x80 0x40 else 0x80 in
      let v := if s then SFopp v else v in
      let (exponent, mantissa) := CalculateMantissaAndExponent v in
      let* nExpLen := lift (GetLengthInBytesOfSInt c exponent) in
      let nManLen := GetLengthInBytesOfUInt mantissa in
      massert c (nExpLen <=? 3) ;;;
      let header := if nExpLen =? 2 then Z.lor header 1
                    else if nExpLen =? 3 then Z.lor header 2 else header in
      BitStream_EncodeConstraintWholeNumber c (1 + nExpLen + nManLen) 0 0xFF ;;;
      BitStream_EncodeConstraintWholeNumber c header 0 0xFF ;;;
      (if 0 <=? exponent then
         let* nb := lift (GetNumberOfBitsForNonNegativeInteger (u64 exponent)) in
         BitStream_AppendNBitZero (nExpLen * 8 - nb) ;;;
         BitStream_EncodeNonNegativeInteger c (u64 exponent)
       else
         let* nb := lift (GetNumberOfBitsForNonNegativeInteger (u64 (- exponent - 1))) in
         BitStream_AppendNBitOne c (nExpLen * 8 - nb) ;;;
         BitStream_EncodeNonNegativeIntegerNeg c (u64 (- exponent - 1)) true) ;;;
      let* nb := lift (GetNumberOfBitsForNonNegativeInteger mantissa) in
      BitStream_AppendNBitZero (nManLen * 8 - nb) ;;;
      BitStream_EncodeNonNegativeInteger c mantissa
  end.

(** Loop of asn1crt_encoding.c:1296-1301: exponent = exponent << 8 | b on int. *)
Fixpoint dec_ibytes (c : cfg) (k : nat) (v : Z) : M (option Z) :=
  match k with
  | O => ret (Some v)
  | S k' =>
      let? b := BitStream_ReadByte in
      let* w := lift (ishl c v 8) in
      dec_ibytes c k' (Z.lor w b)
  end.

(** DecodeRealAsBinaryEncoding, asn1crt_encoding.c:1263-1321; the conversion of
    0xFFFFFFFF to int gives -1. *)
Definition DecodeRealAsBinaryEncoding (c : cfg) (length header : Z) : M (option double) :=
  let neg := negb (Z.land header 0x40 =? 0) in
  let expFactor := if negb (Z.land header 0x10 =? 0) then 3
                   else if negb (Z.land header 0x20 =? 0) then 4 else 1 in
  let F := Z.shiftr (Z.land header 0x0C) 2 in
  let factor := Z.shiftl 1 F in
  let expLen := Z.land header 0x03 + 1 in
  if length <? expLen then ret None
  else
    let* expIsNegative := BitStream_PeekBit in
    let? exponent := dec_ibytes c (Z.to_nat expLen) (if expIsNegative then -1 else 0) in
    let? N := dec_ubytes (Z.to_nat (length - expLen)) 0 in
    let* e := lift (ires c (expFactor * exponent)) in
    let* v := lift (GetDoubleByMantissaAndExp c (u64 (N * factor)) e) in
    ret (Some (if neg then SFopp v else v)).

(** BitStream_DecodeReal, asn1crt_encoding.c:1221-1260 *)
Definition BitStream_DecodeReal (c : cfg) : M (option double) :=
  let? length := BitStream_ReadByte in
  if length =? 0 then ret (Some (S754_zero false))
  else
    let? header := BitStream_ReadByte in
    if header =? 0x40 then ret (Some (S754_infinity false))
    else if header =? 0x41 then ret (Some (S754_infinity true))
    else if header =? 0x42 then ret (Some S754_nan)
    else if header =? 0x43 then ret (Some (S754_zero true))
    else DecodeRealAsBinaryEncoding c (length - 1) header.

(** Conversion of a double to float: (float)rv. *)
Definition to_float (x : double) : double :=
  match x with
  | S754_finite s m e => binary_normalize 24 128 (if s then - Zpos m else Zpos m) e s
  | _ => x
  end.

(** BitStream_DecodeReal_fp32, asn1crt_encoding.c:1803-1809. When decoding fails
    the C code converts an unset variable; no caller uses the result. *)
Definition BitStream_DecodeReal_fp32 (c : cfg) : M (option double) :=
  let? rv := BitStream_DecodeReal c in ret (Some (to_float rv)).
