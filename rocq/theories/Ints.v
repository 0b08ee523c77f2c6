(** Integer codecs, asn1crt/asn1crt_encoding.c:535-1025 (WORD_SIZE = 8). *)
From Verif Require Import Base BitStream.

(** while(v>0){v>>=1; ret++;} of GetNumberOfBitsForNonNegativeInteger32,
    asn1crt_encoding.c:696-699. Fuel 33 covers every 32-bit value. *)
Fixpoint nb_loop (fuel : nat) (v r : Z) : outcome Z :=
  match fuel with
  | O => Diverge
  | S f => if 0 <? v then nb_loop f (Z.shiftr v 1) (r + 1) else Ok r
  end.

(** GetNumberOfBitsForNonNegativeInteger32, asn1crt_encoding.c:679-701 *)
Definition GetNumberOfBitsForNonNegativeInteger32 (v : Z) : outcome Z :=
  if v <? 0x100 then nb_loop 33 v 0
  else if v <? 0x10000 then nb_loop 33 (Z.shiftr v 8) 8
  else if v <? 0x1000000 then nb_loop 33 (Z.shiftr v 16) 16
  else nb_loop 33 (Z.shiftr v 24) 24.

(** GetNumberOfBitsForNonNegativeInteger, asn1crt_encoding.c:703-715 *)
Definition GetNumberOfBitsForNonNegativeInteger (v : Z) : outcome Z :=
  if v <? 0x100000000 then GetNumberOfBitsForNonNegativeInteger32 (u32 v)
  else obind (GetNumberOfBitsForNonNegativeInteger32 (u32 (Z.shiftr v 32)))
             (fun n => Ok (32 + n)).

(** GetLengthInBytesOfUInt, asn1crt_encoding.c:717-735 *)
Definition GetLengthInBytesOfUInt (v : Z) : Z :=
  let '(r, v32) := if 0xFFFFFFFF <? v then (4, u32 (Z.shiftr v 32)) else (0, u32 v) in
  if v32 <? 0x100 then r + 1
  else if v32 <? 0x10000 then r + 2
  else if v32 <? 0x1000000 then r + 3
  else r + 4.

(** GetLengthSIntHelper, asn1crt_encoding.c:737-755 *)
Definition GetLengthSIntHelper (v : Z) : Z :=
  let '(r, v32) := if 0x7FFFFFFF <? v then (4, u32 (Z.shiftr v 32)) else (0, u32 v) in
  if v32 <=? 0x7F then r + 1
  else if v32 <=? 0x7FFF then r + 2
  else if v32 <=? 0x7FFFFF then r + 3
  else r + 4.

(** The C expression (asn1SccUint)(-v - 1) for a signed v, with two signed
    operations. *)
Definition neg_m1 (c : cfg) (v : Z) : outcome Z :=
  obind (sres c (- v)) (fun a => obind (sres c (a - 1)) (fun b => Ok (u64 b))).

(** GetLengthInBytesOfSInt, asn1crt_encoding.c:757-763 *)
Definition GetLengthInBytesOfSInt (c : cfg) (v : Z) : outcome Z :=
  if 0 <=? v then Ok (GetLengthSIntHelper (u64 v))
  else obind (neg_m1 c v) (fun u => Ok (GetLengthSIntHelper u)).

(** while ((v & curMask) == 0) of asn1crt_encoding.c:563-566 *)
Fixpoint msb_loop (fuel : nat) (v mask cc : Z) : outcome Z :=
  match fuel with
  | O => Diverge
  | S f => if Z.land v mask =? 0 then msb_loop f v (Z.shiftr mask 1) (cc - 1) else Ok cc
  end.

(** while (cc) of asn1crt_encoding.c:574-578 *)
Fixpoint enc32_bytes (c : cfg) (fuel : nat) (v cc : Z) (negate : bool) : M unit :=
  match fuel with
  | O => diverge
  | S f =>
      if cc =? 0 then ret tt
      else
        let* m := tbl masks2 (Z.shiftr cc 3) in
        let t1 := Z.land v m in
        let cc := cc - 8 in
        BitStream_AppendByte c (byte_of (Z.shiftr t1 cc)) negate ;;;
        enc32_bytes c f v cc negate
  end.

(** BitStream_EncodeNonNegativeInteger32Neg, asn1crt_encoding.c:535-580 *)
Definition BitStream_EncodeNonNegativeInteger32Neg (c : cfg) (v : Z) (negate : bool) : M unit :=
  if v =? 0 then ret tt
  else
    let '(cc, curMask) :=
      if v <? 0x100 then (8, 0x80)
      else if v <? 0x10000 then (16, 0x8000)
      else if v <? 0x1000000 then (24, 0x800000)
      else (32, 0x80000000) in
    let* cc := lift (msb_loop 33 v curMask cc) in
    let pbits := Z.rem cc 8 in
    if negb (pbits =? 0) then
      let cc := cc - pbits in
      BitStream_AppendPartialByte c (byte_of (Z.shiftr v cc)) (byte_of pbits) negate ;;;
      enc32_bytes c 5 v cc negate
    else enc32_bytes c 5 v cc negate.

(** while (nBits >= 8) of asn1crt_encoding.c:588-594, then the partial byte
    (595-601). Structural on the number of whole bytes, nBits/8. *)
Fixpoint dec32_bytes (k : nat) (v : Z) : M (option Z) :=
  match k with
  | O => ret (Some v)
  | S k' =>
      let? b := BitStream_ReadByte in
      dec32_bytes k' (Z.lor (u32 (Z.shiftl v 8)) b)
  end.

(** BitStream_DecodeNonNegativeInteger32Neg, asn1crt_encoding.c:582-604. For
    negative nBits the loop body and nothing else is skipped but
    "if (nBits)" would shift by a negative amount: UB. *)
Definition BitStream_DecodeNonNegativeInteger32Neg (nBits : Z) : M (option Z) :=
  if nBits <? 0 then ub
  else
    let? v := dec32_bytes (Z.to_nat (nBits / 8)) 0 in
    let r := nBits mod 8 in
    if r =? 0 then ret (Some v)
    else
      let? b := BitStream_ReadPartialByte r in
      ret (Some (Z.lor (u32 (Z.shiftl v r)) b)).

(** BitStream_EncodeNonNegativeInteger, asn1crt_encoding.c:608-627 *)
Definition BitStream_EncodeNonNegativeInteger (c : cfg) (v : Z) : M unit :=
  if v <? 0x100000000 then BitStream_EncodeNonNegativeInteger32Neg c (u32 v) false
  else
    let hi := u32 (Z.shiftr v 32) in
    let lo := u32 v in
    BitStream_EncodeNonNegativeInteger32Neg c hi false ;;;
    let* nBits := lift (GetNumberOfBitsForNonNegativeInteger lo) in
    BitStream_AppendNBitZero (32 - nBits) ;;;
    BitStream_EncodeNonNegativeInteger32Neg c lo false.

(** BitStream_DecodeNonNegativeInteger, asn1crt_encoding.c:630-653. On failure
    the C code still writes the out parameter; no caller uses it. A shift by 64 or more (nBits >= 96)
    is UB. *)
Definition BitStream_DecodeNonNegativeInteger (nBits : Z) : M (option Z) :=
  if nBits <=? 32 then BitStream_DecodeNonNegativeInteger32Neg nBits
  else
    let? hi := BitStream_DecodeNonNegativeInteger32Neg 32 in
    let? lo := BitStream_DecodeNonNegativeInteger32Neg (nBits - 32) in
    if 96 <=? nBits then ub
    else ret (Some (Z.lor (u64 (Z.shiftl hi (nBits - 32))) lo)).

(** BitStream_EncodeNonNegativeIntegerNeg, asn1crt_encoding.c:656-677 *)
Definition BitStream_EncodeNonNegativeIntegerNeg (c : cfg) (v : Z) (negate : bool) : M unit :=
  if v <? 0x100000000 then BitStream_EncodeNonNegativeInteger32Neg c (u32 v) negate
  else
    let hi := u32 (Z.shiftr v 32) in
    let lo := u32 v in
    BitStream_EncodeNonNegativeInteger32Neg c hi negate ;;;
    let lo := if negate then u32 (Z.lnot lo) else lo in
    let* nBits := lift (GetNumberOfBitsForNonNegativeInteger lo) in
    BitStream_AppendNBitZero (32 - nBits) ;;;
    BitStream_EncodeNonNegativeInteger32Neg c lo false.

(** BitStream_EncodeConstraintWholeNumber, asn1crt_encoding.c:769-782 *)
Definition BitStream_EncodeConstraintWholeNumber (c : cfg) (v min max : Z) : M unit :=
  massert c (min <=? max) ;;;
  let* d := lift (sres c (max - min)) in
  let range := u64 d in
  if range =? 0 then ret tt
  else
    let* nRangeBits := lift (GetNumberOfBitsForNonNegativeInteger range) in
    let* e := lift (sres c (v - min)) in
    let* nBits := lift (GetNumberOfBitsForNonNegativeInteger (u64 e)) in
    BitStream_AppendNBitZero (nRangeBits - nBits) ;;;
    BitStream_EncodeNonNegativeInteger c (u64 e).

(** BitStream_EncodeConstraintPosWholeNumber, asn1crt_encoding.c:784-798 *)
Definition BitStream_EncodeConstraintPosWholeNumber (c : cfg) (v min max : Z) : M unit :=
  massert c (min <=? v) ;;;
  massert c (v <=? max) ;;;
  let range := u64 (max - min) in
  if range =? 0 then ret tt
  else
    let* nRangeBits := lift (GetNumberOfBitsForNonNegativeInteger range) in
    let* nBits := lift (GetNumberOfBitsForNonNegativeInteger (u64 (v - min))) in
    BitStream_AppendNBitZero (nRangeBits - nBits) ;;;
    BitStream_EncodeNonNegativeInteger c (u64 (v - min)).

(** BitStream_DecodeConstraintWholeNumber, asn1crt_encoding.c:801-827. [None]:
    FALSE, with the out parameter set to 0. *)
Definition BitStream_DecodeConstraintWholeNumber (c : cfg) (min max : Z) : M (option Z) :=
  let* d := lift (sres c (max - min)) in
  let range := u64 d in
  assert_or_false c (min <=? max)
    (if range =? 0 then ret (Some min)
     else
       let* nRangeBits := lift (GetNumberOfBitsForNonNegativeInteger range) in
       let? uv := BitStream_DecodeNonNegativeInteger nRangeBits in
       if range <? uv then ret None
       else let* v := lift (sres c (s64 uv + min)) in ret (Some v)).

(** BitStream_DecodeConstraintPosWholeNumber, asn1crt_encoding.c:888-913 *)
Definition BitStream_DecodeConstraintPosWholeNumber (c : cfg) (min max : Z) : M (option Z) :=
  let range := u64 (max - min) in
  assert_or_false c (min <=? max)
    (if range =? 0 then ret (Some min)
     else
       let* nRangeBits := lift (GetNumberOfBitsForNonNegativeInteger range) in
       let? uv := BitStream_DecodeNonNegativeInteger nRangeBits in
       if range <? uv then ret None
       else ret (Some (u64 (uv + min)))).

(** Conversion to a signed type of w bits: (int8_t)x, (int16_t)x, (int32_t)x *)
Definition sN (w x : Z) : Z :=
  let m := x mod 2 ^ w in if m <? 2 ^ (w - 1) then m else m - 2 ^ w.

(** BitStream_DecodeConstraintWholeNumberInt8/16/32, asn1crt_encoding.c:829-854;
    w is 8, 16 or 32. *)
Definition BitStream_DecodeConstraintWholeNumberIntN (c : cfg) (w min max : Z) : M (option Z) :=
  let? bv := BitStream_DecodeConstraintWholeNumber c min max in ret (Some (sN w bv)).

(** BitStream_DecodeConstraintPosWholeNumberUInt8/16/32,
    asn1crt_encoding.c:857-883 *)
Definition BitStream_DecodeConstraintPosWholeNumberUIntN (c : cfg) (w min max : Z) : M (option Z) :=
  let? bv := BitStream_DecodeConstraintPosWholeNumber c min max in ret (Some (bv mod 2 ^ w)).

(** BitStream_EncodeSemiConstraintWholeNumber, asn1crt_encoding.c:916-928 *)
Definition BitStream_EncodeSemiConstraintWholeNumber (c : cfg) (v min : Z) : M unit :=
  massert c (min <=? v) ;;;
  let* d := lift (sres c (v - min)) in
  let u := u64 d in
  let nBytes := GetLengthInBytesOfUInt u in
  BitStream_EncodeConstraintWholeNumber c nBytes 0 255 ;;;
  let* nb := lift (GetNumberOfBitsForNonNegativeInteger u) in
  BitStream_AppendNBitZero (nBytes * 8 - nb) ;;;
  BitStream_EncodeNonNegativeInteger c u.

(** BitStream_EncodeSemiConstraintPosWholeNumber, asn1crt_encoding.c:930-942 *)
Definition BitStream_EncodeSemiConstraintPosWholeNumber (c : cfg) (v min : Z) : M unit :=
  massert c (min <=? v) ;;;
  let u := u64 (v - min) in
  let nBytes := GetLengthInBytesOfUInt u in
  BitStream_EncodeConstraintWholeNumber c nBytes 0 255 ;;;
  let* nb := lift (GetNumberOfBitsForNonNegativeInteger u) in
  BitStream_AppendNBitZero (nBytes * 8 - nb) ;;;
  BitStream_EncodeNonNegativeInteger c u.

(** Byte loops of the semi-constrained and unconstrained decoders:
    signed ([v << 8] on a signed value) and unsigned. *)
Fixpoint dec_sbytes (c : cfg) (k : nat) (v : Z) : M (option Z) :=
  match k with
  | O => ret (Some v)
  | S k' =>
      let? b := BitStream_ReadByte in
      let* w := lift (sshl c v 8) in
      dec_sbytes c k' (Z.lor w b)
  end.
Fixpoint dec_ubytes (k : nat) (v : Z) : M (option Z) :=
  match k with
  | O => ret (Some v)
  | S k' =>
      let? b := BitStream_ReadByte in
      dec_ubytes k' (Z.lor (u64 (Z.shiftl v 8)) b)
  end.

(** BitStream_DecodeSemiConstraintWholeNumber, asn1crt_encoding.c:945-962 *)
Definition BitStream_DecodeSemiConstraintWholeNumber (c : cfg) (min : Z) : M (option Z) :=
  let? nBytes := BitStream_DecodeConstraintWholeNumber c 0 255 in
  if 8 <? nBytes then ret None
  else
    let? v := dec_sbytes c (Z.to_nat nBytes) 0 in
    let* r := lift (sres c (v + min)) in
    ret (Some r).

(** BitStream_DecodeSemiConstraintPosWholeNumber, asn1crt_encoding.c:964-981 *)
Definition BitStream_DecodeSemiConstraintPosWholeNumber (c : cfg) (min : Z) : M (option Z) :=
  let? nBytes := BitStream_DecodeConstraintWholeNumber c 0 255 in
  if 8 <? nBytes then ret None
  else
    let? v := dec_ubytes (Z.to_nat nBytes) 0 in
    ret (Some (u64 (v + min))).

(** BitStream_EncodeUnConstraintWholeNumber, asn1crt_encoding.c:984-999 *)
Definition BitStream_EncodeUnConstraintWholeNumber (c : cfg) (v : Z) : M unit :=
  let* nBytes := lift (GetLengthInBytesOfSInt c v) in
  BitStream_EncodeConstraintWholeNumber c nBytes 0 255 ;;;
  if 0 <=? v then
    let* nb := lift (GetNumberOfBitsForNonNegativeInteger (u64 v)) in
    BitStream_AppendNBitZero (nBytes * 8 - nb) ;;;
    BitStream_EncodeNonNegativeInteger c (u64 v)
  else
    let* u := lift (neg_m1 c v) in
    let* nb := lift (GetNumberOfBitsForNonNegativeInteger u) in
    BitStream_AppendNBitOne c (nBytes * 8 - nb) ;;;
    BitStream_EncodeNonNegativeIntegerNeg c u true.

(** BitStream_DecodeUnConstraintWholeNumber, asn1crt_encoding.c:1001-1025;
    (asn1SccSint)MAX_INT is -1. *)
Definition BitStream_DecodeUnConstraintWholeNumber (c : cfg) : M (option Z) :=
  let? nBytes := BitStream_DecodeConstraintWholeNumber c 0 255 in
  if 8 <? nBytes then ret None
  else
    let* neg := BitStream_PeekBit in
    dec_sbytes c (Z.to_nat nBytes) (if neg then -1 else 0).
