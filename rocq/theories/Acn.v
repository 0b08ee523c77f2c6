(** ACN run-time library: alignment, integers, booleans, determinants.
    asn1crt/asn1crt_encoding_acn.c:13-1032, 1455-2044 and
    asn1crt_encoding_acn.h:300-503 (WORD_SIZE = 8, non-streaming build: the
    bitstream_push/fetch_data_if_required calls are no-ops). Encoder functions
    returning void return [unit]; decoders return [None] for FALSE. *)
From Verif Require Import Base BitStream Ints Misc.

(** CHECK_BIT_STREAM_PRE, asn1crt.h:307 *)
Definition check_pre (c : cfg) (nbits : Z) : M unit :=
  let* s := get in massert c (curByte s * 8 + curBit s + nbits <=? count s * 8).

(** ** Alignment. [bEncode] only selects the streaming callback and is dropped. *)
(** Acn_AlignToNextByte, asn1crt_encoding_acn.c:13-28 *)
Definition Acn_AlignToNextByte (c : cfg) : M unit :=
  let* s := get in
  check_pre c (Z.land (8 - curBit s) 7) ;;;
  if negb (curBit s =? 0) then
    set_cur (curByte s + 1) 0 ;;; check_stream c
  else ret tt.

(** Acn_AlignToNextWord, asn1crt_encoding_acn.c:30-45, and Acn_AlignToNextDWord,
    47-62: [w] is 2 or 4 bytes. C division truncates. *)
Definition Acn_AlignToNextN (c : cfg) (w : Z) : M unit :=
  let* s := get in
  check_pre c (Z.land (8 * w - (8 * Z.land (curByte s) (w - 1) + curBit s)) (8 * w - 1)) ;;;
  Acn_AlignToNextByte c ;;;
  let* s := get in
  set_cur (Z.quot (curByte s + (w - 1)) w * w) (curBit s) ;;;
  check_stream c.
Definition Acn_AlignToNextWord (c : cfg) : M unit := Acn_AlignToNextN c 2.
Definition Acn_AlignToNextDWord (c : cfg) : M unit := Acn_AlignToNextN c 4.

(** ** Positive integers *)
(** Acn_Enc_Int_PositiveInteger_ConstSize, asn1crt_encoding_acn.c:65-78 *)
Definition Acn_Enc_Int_PositiveInteger_ConstSize (c : cfg) (v n : Z) : M unit :=
  if n =? 0 then ret tt
  else
    let* nb := lift (GetNumberOfBitsForNonNegativeInteger v) in
    BitStream_AppendNBitZero (n - nb) ;;;
    BitStream_EncodeNonNegativeInteger c v ;;;
    check_stream c.

(** Acn_Enc_Int_PositiveInteger_ConstSize_8, asn1crt_encoding_acn.c:79-83. The
    flag of BitStream_AppendByte0 is ignored, here and below. *)
Definition Acn_Enc_Int_PositiveInteger_ConstSize_8 (c : cfg) (v : Z) : M unit :=
  BitStream_AppendByte0 (byte_of v) ;;; check_stream c.

(** Loop of Acn_Enc_Int_PositiveInteger_ConstSize_big_endian_B,
    asn1crt_encoding_acn.c:94-98; [k] is size - i. *)
Fixpoint be_loop (size v mask i : Z) (k : nat) : M unit :=
  match k with
  | O => ret tt
  | S k' =>
      BitStream_AppendByte0 (byte_of (Z.shiftr (Z.land v mask) ((size - i - 1) * 8))) ;;;
      be_loop size v (Z.shiftr mask 8) (i + 1) k'
  end.
(** Acn_Enc_Int_PositiveInteger_ConstSize_big_endian_B,
    asn1crt_encoding_acn.c:85-100; _16, _32, _64 (102-122) call it with 2, 4, 8. *)
Definition Acn_Enc_Int_PositiveInteger_ConstSize_big_endian (c : cfg) (size v : Z) : M unit :=
  be_loop size v (u64 (Z.shiftl 0xFF ((size - 1) * 8))) 0 (Z.to_nat size) ;;; check_stream c.

(** Loop of asn1crt_encoding_acn.c:131-135 *)
Fixpoint le_loop (v : Z) (k : nat) : M unit :=
  match k with
  | O => ret tt
  | S k' => BitStream_AppendByte0 (byte_of v) ;;; le_loop (Z.shiftr v 8) k'
  end.
(** Acn_Enc_Int_PositiveInteger_ConstSize_little_endian_N,
    asn1crt_encoding_acn.c:124-137; _16, _32, _64 (139-159) call it with 2, 4, 8. *)
Definition Acn_Enc_Int_PositiveInteger_ConstSize_little_endian (c : cfg) (size v : Z) : M unit :=
  le_loop v (Z.to_nat size) ;;; check_stream c.

(** Acn_Dec_Int_PositiveInteger_ConstSize, asn1crt_encoding_acn.c:162-172 *)
Definition Acn_Dec_Int_PositiveInteger_ConstSize (n : Z) : M (option Z) :=
  BitStream_DecodeNonNegativeInteger n.

(** Acn_Dec_Int_PositiveInteger_ConstSize_8, asn1crt_encoding_acn.c:175-182 *)
Definition Acn_Dec_Int_PositiveInteger_ConstSize_8 : M (option Z) := BitStream_ReadByte.

(** Acn_Dec_Int_PositiveInteger_ConstSize_big_endian_N,
    asn1crt_encoding_acn.c:184-202 and 204-219; the loop
    "ret <<= 8; ret |= b" is that of [dec_ubytes]. *)
Definition Acn_Dec_Int_PositiveInteger_ConstSize_big_endian (size : Z) : M (option Z) :=
  dec_ubytes (Z.to_nat size) 0.

(** Loop of asn1crt_encoding_acn.c:231-238 *)
Fixpoint dec_le (i r : Z) (k : nat) : M (option Z) :=
  match k with
  | O => ret (Some r)
  | S k' =>
      let? b := BitStream_ReadByte in
      dec_le (i + 1) (Z.lor r (u64 (Z.shiftl b (i * 8)))) k'
  end.
(** Acn_Dec_Int_PositiveInteger_ConstSize_little_endian_N,
    asn1crt_encoding_acn.c:221-260 *)
Definition Acn_Dec_Int_PositiveInteger_ConstSize_little_endian (size : Z) : M (option Z) :=
  dec_le 0 0 (Z.to_nat size).

(** Loop of Encode_UnsignedInteger, asn1crt_encoding_acn.c:275-279 *)
Fixpoint msb_bytes (v : Z) (k : nat) : M unit :=
  match k with
  | O => ret tt
  | S k' =>
      BitStream_AppendByte0 (byte_of (Z.shiftr (Z.land v 0xFF00000000000000) 56)) ;;;
      msb_bytes (u64 (Z.shiftl v 8)) k'
  end.
(** Encode_UnsignedInteger, asn1crt_encoding_acn.c:265-280; a shift by 64 or
    more is UB. *)
Definition Encode_UnsignedInteger (c : cfg) (v nBytes : Z) : M unit :=
  massert c (nBytes <=? 8) ;;;
  let sh := u32 (64 - nBytes * 8) in
  if 64 <=? sh then ub
  else msb_bytes (u64 (Z.shiftl v sh)) (Z.to_nat nBytes).

(** Acn_Enc_Int_PositiveInteger_VarSize_LengthEmbedded,
    asn1crt_encoding_acn.c:283-296 *)
Definition Acn_Enc_Int_PositiveInteger_VarSize_LengthEmbedded (c : cfg) (v : Z) : M unit :=
  let nBytes := byte_of (GetLengthInBytesOfUInt v) in
  BitStream_AppendByte0 nBytes ;;;
  Encode_UnsignedInteger c v nBytes ;;;
  check_stream c.

(** Acn_Dec_Int_PositiveInteger_VarSize_LengthEmbedded,
    asn1crt_encoding_acn.c:298-315 *)
Definition Acn_Dec_Int_PositiveInteger_VarSize_LengthEmbedded : M (option Z) :=
  let? nBytes := BitStream_ReadByte in
  if 8 <? nBytes then ret None else dec_ubytes (Z.to_nat nBytes) 0.

(** ** Two's complement integers *)
(** Acn_Enc_Int_TwosComplement_ConstSize, asn1crt_encoding_acn.c:318-330 *)
Definition Acn_Enc_Int_TwosComplement_ConstSize (c : cfg) (v n : Z) : M unit :=
  (if 0 <=? v then
     let* nb := lift (GetNumberOfBitsForNonNegativeInteger (u64 v)) in
     BitStream_AppendNBitZero (n - nb) ;;;
     BitStream_EncodeNonNegativeInteger c (u64 v)
   else
     let* u := lift (neg_m1 c v) in
     let* nb := lift (GetNumberOfBitsForNonNegativeInteger u) in
     BitStream_AppendNBitOne c (n - nb) ;;;
     BitStream_EncodeNonNegativeIntegerNeg c u true) ;;;
  check_stream c.

(** Acn_Enc_Int_TwosComplement_ConstSize_8, asn1crt_encoding_acn.c:335-338 *)
Definition Acn_Enc_Int_TwosComplement_ConstSize_8 (c : cfg) (v : Z) : M unit :=
  let* u := lift (int2uint c v) in Acn_Enc_Int_PositiveInteger_ConstSize_8 c u.
(** Acn_Enc_Int_TwosComplement_ConstSize_big_endian_16/32/64 (340-353) and
    _little_endian_16/32/64 (355-368) *)
Definition Acn_Enc_Int_TwosComplement_ConstSize_big_endian (c : cfg) (size v : Z) : M unit :=
  let* u := lift (int2uint c v) in Acn_Enc_Int_PositiveInteger_ConstSize_big_endian c size u.
Definition Acn_Enc_Int_TwosComplement_ConstSize_little_endian (c : cfg) (size v : Z) : M unit :=
  let* u := lift (int2uint c v) in Acn_Enc_Int_PositiveInteger_ConstSize_little_endian c size u.

(** Acn_Dec_Int_TwosComplement_ConstSize, asn1crt_encoding_acn.c:373-397;
    (asn1SccSint)MAX_INT is -1; C division truncates. *)
Definition Acn_Dec_Int_TwosComplement_ConstSize (c : cfg) (n : Z) : M (option Z) :=
  let* neg := BitStream_PeekBit in
  let nBytes := Z.quot n 8 in
  let rst := Z.rem n 8 in
  let? v := dec_sbytes c (Z.to_nat nBytes) (if neg then -1 else 0) in
  if 0 <? rst then
    let? b := BitStream_ReadPartialByte rst in
    let* w := lift (sshl c v rst) in
    ret (Some (Z.lor w b))
  else ret (Some v).

(** Acn_Dec_Int_TwosComplement_ConstSize_8 (399-406), _big_endian_16/32/64
    (408-433), _little_endian_16/32/64 (435-460) *)
Definition Acn_Dec_Int_TwosComplement_ConstSize_8 (c : cfg) : M (option Z) :=
  let? u := Acn_Dec_Int_PositiveInteger_ConstSize_8 in
  let* v := lift (uint2int c u 1) in ret (Some v).
Definition Acn_Dec_Int_TwosComplement_ConstSize_big_endian (c : cfg) (size : Z) : M (option Z) :=
  let? u := Acn_Dec_Int_PositiveInteger_ConstSize_big_endian size in
  let* v := lift (uint2int c u size) in ret (Some v).
Definition Acn_Dec_Int_TwosComplement_ConstSize_little_endian (c : cfg) (size : Z) : M (option Z) :=
  let? u := Acn_Dec_Int_PositiveInteger_ConstSize_little_endian size in
  let* v := lift (uint2int c u size) in ret (Some v).

(** To_UInt, asn1crt_encoding_acn.c:465-475: the code of int2uint. *)
Definition To_UInt (c : cfg) (v : Z) : outcome Z := int2uint c v.

(** Acn_Enc_Int_TwosComplement_VarSize_LengthEmbedded,
    asn1crt_encoding_acn.c:478-491 *)
Definition Acn_Enc_Int_TwosComplement_VarSize_LengthEmbedded (c : cfg) (v : Z) : M unit :=
  let* n := lift (GetLengthInBytesOfSInt c v) in
  let nBytes := byte_of n in
  BitStream_AppendByte0 nBytes ;;;
  let* u := lift (To_UInt c v) in
  Encode_UnsignedInteger c u nBytes ;;;
  check_stream c.

(** Loop of asn1crt_encoding_acn.c:505-516; [first]: i == 0. *)
Fixpoint dec_vtwos (first : bool) (v : Z) (neg : bool) (k : nat) : M (option (Z * bool)) :=
  match k with
  | O => ret (Some (v, neg))
  | S k' =>
      let? b := BitStream_ReadByte in
      let isneg := first && (0 <? Z.land b 0x80) in
      let v := if isneg then 0xFFFFFFFFFFFFFFFF else v in
      dec_vtwos false (Z.lor (u64 (Z.shiftl v 8)) b) (neg || isneg) k'
  end.
(** Acn_Dec_Int_TwosComplement_VarSize_LengthEmbedded,
    asn1crt_encoding_acn.c:494-524 *)
Definition Acn_Dec_Int_TwosComplement_VarSize_LengthEmbedded (c : cfg) : M (option Z) :=
  let? nBytes := BitStream_ReadByte in
  if 8 <? nBytes then ret None
  else
    let? p := dec_vtwos true 0 false (Z.to_nat nBytes) in
    let (v, neg) := p in
    if neg then
      let* a := lift (sres c (- s64 (u64 (Z.lnot v)))) in
      let* r := lift (sres c (a - 1)) in
      ret (Some r)
    else ret (Some (s64 v)).

(** ** Packed decimal *)
(** Acn_Get_Int_Size_BCD, asn1crt_encoding_acn.c:528-537. Fuel 64 covers every
    64-bit value. *)
Fixpoint bcd_size (fuel : nat) (v r : Z) : outcome Z :=
  match fuel with
  | O => Diverge
  | S f => if 0 <? v then bcd_size f (Z.quot v 10) (r + 1) else Ok r
  end.
Definition Acn_Get_Int_Size_BCD (v : Z) : outcome Z := bcd_size 64 v 0.

(** while (intVal>0) { tmp[totalNibbles++] = intVal % 10; intVal /= 10; },
    asn1crt_encoding_acn.c:552-555, 660-663: the values stored. *)
Fixpoint digit_loop (fuel : nat) (v : Z) : outcome (list Z) :=
  match fuel with
  | O => Diverge
  | S f =>
      if 0 <? v then obind (digit_loop f (Z.quot v 10)) (fun l => Ok (Z.rem v 10 :: l)) else Ok []
  end.
(** char tmp[100] after the loop; a store past the end would be UB. *)
Definition digit_array (v : Z) : outcome (list Z * Z) :=
  obind (digit_loop 64 v) (fun l =>
    if 100 <? Z.of_nat (length l) then UB
    else Ok (l ++ repeat 0 (100 - length l), Z.of_nat (length l))).

(** for (i = n-1; i >= 0; i--), asn1crt_encoding_acn.c:558-560, 666-668 *)
Fixpoint put_digits (put : Z -> M unit) (tmp : list Z) (k : nat) : M unit :=
  match k with
  | O => ret tt
  | S k' =>
      let* d := lift (nthZ tmp (Z.of_nat k')) in
      put d ;;; put_digits put tmp k'
  end.

(** Acn_Enc_Int_BCD_ConstSize, asn1crt_encoding_acn.c:542-563 *)
Definition Acn_Enc_Int_BCD_ConstSize (c : cfg) (v n : Z) : M unit :=
  massert c (n <=? 100) ;;;
  let* (tmp, total) := lift (digit_array v) in
  massert c (total <=? n) ;;;
  put_digits (fun d => BitStream_AppendPartialByte c (byte_of d) 4 false) tmp (Z.to_nat n) ;;;
  check_stream c.

(** Loop of asn1crt_encoding_acn.c:573-582 *)
Fixpoint dec_bcd (r : Z) (k : nat) : M (option Z) :=
  match k with
  | O => ret (Some r)
  | S k' =>
      let? d := BitStream_ReadPartialByte 4 in
      dec_bcd (u64 (u64 (r * 10) + d)) k'
  end.
(** Acn_Dec_Int_BCD_ConstSize, asn1crt_encoding_acn.c:567-586 *)
Definition Acn_Dec_Int_BCD_ConstSize (n : Z) : M (option Z) := dec_bcd 0 (Z.to_nat n).

(** Acn_Enc_Int_BCD_VarSize_LengthEmbedded, asn1crt_encoding_acn.c:589-600 *)
Definition Acn_Enc_Int_BCD_VarSize_LengthEmbedded (c : cfg) (v : Z) : M unit :=
  let* n := lift (Acn_Get_Int_Size_BCD v) in
  BitStream_AppendByte0 (byte_of n) ;;;
  Acn_Enc_Int_BCD_ConstSize c v n ;;;
  check_stream c.
(** Acn_Dec_Int_BCD_VarSize_LengthEmbedded, asn1crt_encoding_acn.c:602-610 *)
Definition Acn_Dec_Int_BCD_VarSize_LengthEmbedded : M (option Z) :=
  let? n := BitStream_ReadByte in
  if 2 * 8 <? n then ret None else Acn_Dec_Int_BCD_ConstSize n.

(** Acn_Enc_Int_BCD_VarSize_NullTerminated, asn1crt_encoding_acn.c:615-626 *)
Definition Acn_Enc_Int_BCD_VarSize_NullTerminated (c : cfg) (v : Z) : M unit :=
  let* n := lift (Acn_Get_Int_Size_BCD v) in
  Acn_Enc_Int_BCD_ConstSize c v n ;;;
  BitStream_AppendPartialByte c 0xF 4 false ;;;
  check_stream c.
(** for (;;) of asn1crt_encoding_acn.c:633-643 *)
Fixpoint dec_bcd_null (fuel : nat) (r : Z) : M (option Z) :=
  match fuel with
  | O => diverge
  | S f =>
      let? d := BitStream_ReadPartialByte 4 in
      if 9 <? d then ret (Some r)
      else dec_bcd_null f (u64 (u64 (r * 10) + d))
  end.
(** Acn_Dec_Int_BCD_VarSize_NullTerminated, asn1crt_encoding_acn.c:628-647. Each
    iteration consumes four bits, so 2*count + 1 iterations suffice. *)
Definition Acn_Dec_Int_BCD_VarSize_NullTerminated : M (option Z) :=
  let* s := get in dec_bcd_null (S (Z.to_nat (2 * count s))) 0.

(** ** Decimal text *)
(** Acn_Enc_UInt_ASCII_ConstSize, asn1crt_encoding_acn.c:650-671 *)
Definition Acn_Enc_UInt_ASCII_ConstSize (c : cfg) (v n : Z) : M unit :=
  massert c (n <=? 100) ;;;
  let* (tmp, total) := lift (digit_array v) in
  massert c (total <=? n) ;;;
  put_digits (fun d => BitStream_AppendByte0 (byte_of (d + 48)) ;;; ret tt) tmp (Z.to_nat n) ;;;
  check_stream c.

(** intVal >= 0 ? (asn1SccUint)intVal : (asn1SccUint)(-intVal),
    asn1crt_encoding_acn.c:676, 770, 846 *)
Definition abs_u (c : cfg) (v : Z) : outcome Z :=
  if 0 <=? v then Ok (u64 v) else obind (sres c (- v)) (fun a => Ok (u64 a)).

(** Acn_Enc_SInt_ASCII_ConstSize, asn1crt_encoding_acn.c:674-686 *)
Definition Acn_Enc_SInt_ASCII_ConstSize (c : cfg) (v n : Z) : M unit :=
  let* a := lift (abs_u c v) in
  BitStream_AppendByte0 (if 0 <=? v then 43 else 45) ;;;
  Acn_Enc_UInt_ASCII_ConstSize c a (n - 1).

(** Acn_Dec_UInt_ASCII_ConstSize, asn1crt_encoding_acn.c:688-708 *)
Fixpoint dec_ascii (c : cfg) (r : Z) (k : nat) : M (option Z) :=
  match k with
  | O => ret (Some r)
  | S k' =>
      let? d := BitStream_ReadByte in
      assert_or_false c ((48 <=? d) && (d <=? 57))
        (dec_ascii c (u64 (u64 (r * 10) + byte_of (d - 48))) k')
  end.
Definition Acn_Dec_UInt_ASCII_ConstSize (c : cfg) (n : Z) : M (option Z) := dec_ascii c 0 (Z.to_nat n).

(** Acn_Dec_SInt_ASCII_ConstSize, asn1crt_encoding_acn.c:710-737 *)
Definition Acn_Dec_SInt_ASCII_ConstSize (c : cfg) (n : Z) : M (option Z) :=
  let? d := BitStream_ReadByte in
  let k (sign : Z) : M (option Z) :=
    let? r := Acn_Dec_UInt_ASCII_ConstSize c (n - 1) in
    let* v := lift (sres c (sign * s64 r)) in
    ret (Some v) in
  if d =? 43 then k 1 else if d =? 45 then k (-1) else assert_or_false c false (ret None).

(** getIntegerDigits, asn1crt_encoding_acn.c:742-762: digitsArray100 and
    *totalDigits. *)
Definition getIntegerDigits (v : Z) : outcome (list Z * Z) :=
  if 0 <? v then
    obind (digit_loop 64 v) (fun l =>
      if 100 <? Z.of_nat (length l) then UB
      else Ok (map (fun d => 48 + d) (rev l) ++ repeat 0 (100 - length l), Z.of_nat (length l)))
  else Ok (48 :: repeat 0 99, 1).

(** while (i < 100 && digitsArray100[i] != 0x0), asn1crt_encoding_acn.c:780-783,
    799-802, 835-838; [k] is 100 - i. *)
Fixpoint put_chars (arr : list Z) (k : nat) (i : Z) : M unit :=
  match k with
  | O => ret tt
  | S k' =>
      let* d := lift (nthZ arr i) in
      if d =? 0 then ret tt
      else BitStream_AppendByte0 d ;;; put_chars arr k' (i + 1)
  end.

(** Acn_Enc_SInt_ASCII_VarSize_LengthEmbedded, asn1crt_encoding_acn.c:765-787 *)
Definition Acn_Enc_SInt_ASCII_VarSize_LengthEmbedded (c : cfg) (v : Z) : M unit :=
  let* a := lift (abs_u c v) in
  let* (arr, nChars) := lift (getIntegerDigits a) in
  BitStream_AppendByte0 (byte_of (nChars + 1)) ;;;
  BitStream_AppendByte0 (if 0 <=? v then 43 else 45) ;;;
  put_chars arr 100 0 ;;;
  check_stream c.
(** Acn_Enc_UInt_ASCII_VarSize_LengthEmbedded, asn1crt_encoding_acn.c:789-806 *)
Definition Acn_Enc_UInt_ASCII_VarSize_LengthEmbedded (c : cfg) (v : Z) : M unit :=
  let* (arr, nChars) := lift (getIntegerDigits v) in
  BitStream_AppendByte0 nChars ;;;
  put_chars arr 100 0 ;;;
  check_stream c.
(** Acn_Dec_UInt_ASCII_VarSize_LengthEmbedded, asn1crt_encoding_acn.c:809-816 *)
Definition Acn_Dec_UInt_ASCII_VarSize_LengthEmbedded (c : cfg) : M (option Z) :=
  let? n := BitStream_ReadByte in Acn_Dec_UInt_ASCII_ConstSize c n.
(** Acn_Dec_SInt_ASCII_VarSize_LengthEmbedded, asn1crt_encoding_acn.c:818-825 *)
Definition Acn_Dec_SInt_ASCII_VarSize_LengthEmbedded (c : cfg) : M (option Z) :=
  let? n := BitStream_ReadByte in Acn_Dec_SInt_ASCII_ConstSize c n.

(** for (i = 0; i<n; i++) BitStream_AppendByte0(pBitStrm, p[i]),
    asn1crt_encoding_acn.c:839-840 *)
Fixpoint put_bytes0 (p : list Z) (k : nat) (i : Z) : M unit :=
  match k with
  | O => ret tt
  | S k' => let* b := lift (nthZ p i) in BitStream_AppendByte0 b ;;; put_bytes0 p k' (i + 1)
  end.
(** Acn_Enc_UInt_ASCII_VarSize_NullTerminated, asn1crt_encoding_acn.c:829-842 *)
Definition Acn_Enc_UInt_ASCII_VarSize_NullTerminated (c : cfg) (v : Z) (p : list Z) (n : Z) : M unit :=
  let* (arr, nChars) := lift (getIntegerDigits v) in
  put_chars arr 100 0 ;;;
  put_bytes0 p (Z.to_nat n) 0 ;;;
  check_stream c.
(** Acn_Enc_SInt_ASCII_VarSize_NullTerminated, asn1crt_encoding_acn.c:844-850 *)
Definition Acn_Enc_SInt_ASCII_VarSize_NullTerminated (c : cfg) (v : Z) (p : list Z) (n : Z) : M unit :=
  let* a := lift (abs_u c v) in
  BitStream_AppendByte0 (if 0 <=? v then 43 else 45) ;;;
  Acn_Enc_UInt_ASCII_VarSize_NullTerminated c a p n.

(** for (j = 0; j < sz; j++) BitStream_ReadByte(pBitStrm, &tmp[j]),
    asn1crt_encoding_acn.c:862-865, 1331-1334: the bytes read. *)
Fixpoint read_window (k : nat) : M (option (list Z)) :=
  match k with
  | O => ret (Some [])
  | S k' =>
      let? b := BitStream_ReadByte in
      let? t := read_window k' in
      ret (Some (b :: t))
  end.
Definition list_eqb (a b : list Z) : bool :=
  (Nat.eqb (length a) (length b)) && forallb (fun q => fst q =? snd q) (combine a b).
(** memcmp(p, tmp, sz) == 0 where [w] holds the first sz bytes of tmp; UB if p is
    shorter. *)
Definition window_is (p w : list Z) : outcome bool :=
  if Z.of_nat (length p) <? Z.of_nat (length w) then UB
  else Ok (list_eqb (firstn (length w) p) w).

(** Loop of asn1crt_encoding_acn.c:867-878: the oldest byte of the window is a
    digit, the window moves by one byte. *)
Fixpoint dec_ascii_null (fuel : nat) (p w : list Z) (r : Z) : M (option Z) :=
  match fuel with
  | O => diverge
  | S f =>
      let* e := lift (window_is p w) in
      if e then ret (Some r)
      else
        let? b := BitStream_ReadByte in
        dec_ascii_null f p (tl w ++ [b]) (u64 (u64 (r * 10) + byte_of (hd 0 w - 48)))
  end.
(** Acn_Dec_UInt_ASCII_VarSize_NullTerminated, asn1crt_encoding_acn.c:853-883.
    Each iteration consumes a byte, so count + 1 iterations suffice. *)
Definition Acn_Dec_UInt_ASCII_VarSize_NullTerminated (p : list Z) (n : Z) : M (option Z) :=
  let sz := if n <? 10 then n else 10 in
  let* s := get in
  let? w := read_window (Z.to_nat sz) in
  dec_ascii_null (S (Z.to_nat (count s))) p w 0.
(** Acn_Dec_SInt_ASCII_VarSize_NullTerminated, asn1crt_encoding_acn.c:886-905 *)
Definition Acn_Dec_SInt_ASCII_VarSize_NullTerminated (c : cfg) (p : list Z) (n : Z) : M (option Z) :=
  let? d := BitStream_ReadByte in
  assert_or_false c ((d =? 45) || (d =? 43))
    (let? r := Acn_Dec_UInt_ASCII_VarSize_NullTerminated p n in
     if d =? 45 then let* v := lift (sres c (- s64 r)) in ret (Some v)
     else ret (Some (s64 r))).

(** ** Boolean patterns. [pat] is the memory behind the pattern pointer. *)
(** Loop of asn1crt_encoding_acn.c:933-937; the && short-circuits the read of
    bitPattern[i]. *)
Fixpoint pat_loop (pat : list Z) (i : Z) (ok : bool) (k : nat) : M (option bool) :=
  match k with
  | O => ret (Some ok)
  | S k' =>
      let? b := BitStream_ReadByte in
      let* ok' := lift (if ok then obind (nthZ pat i) (fun x => Ok (b =? x)) else Ok false) in
      pat_loop pat (i + 1) ok' k'
  end.
(** BitStream_ReadBitPattern, asn1crt_encoding_acn.c:925-946 *)
Definition BitStream_ReadBitPattern (pat : list Z) (n : Z) : M (option bool) :=
  let nBytes := Z.quot n 8 in
  let rst := Z.rem n 8 in
  let? ok := pat_loop pat 0 true (Z.to_nat nBytes) in
  if 0 <? rst then
    let? b := BitStream_ReadPartialByte rst in
    let* ok' := lift (if ok then obind (nthZ pat nBytes) (fun x => Ok (b =? Z.shiftr x (8 - rst)))
                      else Ok false) in
    ret (Some ok')
  else ret (Some ok).

Fixpoint skip_bytes (k : nat) : M (option unit) :=
  match k with
  | O => ret (Some tt)
  | S k' => let? _ := BitStream_ReadByte in skip_bytes k'
  end.
(** BitStream_ReadBitPattern_ignore_value, asn1crt_encoding_acn.c:948-967 *)
Definition BitStream_ReadBitPattern_ignore_value (n : Z) : M (option unit) :=
  let? _ := skip_bytes (Z.to_nat (Z.quot n 8)) in
  if 0 <? Z.rem n 8 then
    let? _ := BitStream_ReadPartialByte (Z.rem n 8) in ret (Some tt)
  else ret (Some tt).

(** Loop of asn1crt_encoding_acn.c:992-997 *)
Fixpoint tf_loop (tp fp : list Z) (i : Z) (t f : bool) (k : nat) : M (option (bool * bool)) :=
  match k with
  | O => ret (Some (t, f))
  | S k' =>
      let? b := BitStream_ReadByte in
      let* t' := lift (if t then obind (nthZ tp i) (fun x => Ok (b =? x)) else Ok false) in
      let* f' := lift (if f then obind (nthZ fp i) (fun x => Ok (b =? x)) else Ok false) in
      tf_loop tp fp (i + 1) t' f' k'
  end.
(** BitStream_DecodeTrueFalseBoolean, asn1crt_encoding_acn.c:983-1016 *)
Definition BitStream_DecodeTrueFalseBoolean (tp fp : list Z) (n : Z) : M (option bool) :=
  let nBytes := Z.quot n 8 in
  let rst := Z.rem n 8 in
  let? (t, f) := tf_loop tp fp 0 true true (Z.to_nat nBytes) in
  let? (t, f) :=
    (if 0 <? rst then
       let? b := BitStream_ReadPartialByte rst in
       let* t' := lift (if t then obind (nthZ tp nBytes) (fun x => Ok (b =? Z.shiftr x (8 - rst)))
                        else Ok false) in
       let* f' := lift (if f then obind (nthZ fp nBytes) (fun x => Ok (b =? Z.shiftr x (8 - rst)))
                        else Ok false) in
       ret (Some (t', f'))
     else ret (Some (t, f))) in
  ret (if t then Some true else if f then Some false else None).

(** ** Lengths and MIL-STD-1553 counts, asn1crt_encoding_acn.c:1455-1474 *)
Definition Acn_Enc_Length (c : cfg) (v n : Z) : M unit := Acn_Enc_Int_PositiveInteger_ConstSize c v n.
Definition Acn_Dec_Length (n : Z) : M (option Z) := Acn_Dec_Int_PositiveInteger_ConstSize n.
Definition milbus_encode (v : Z) : Z := if v =? 32 then 0 else v.
Definition milbus_decode (v : Z) : Z := if v =? 0 then 32 else v.

(** ** Decoders into narrower C types, asn1crt_encoding_acn.c:1477-2044: the
    value is converted to uintW_t or intW_t. When the inner decoder fails the C
    code converts an unset variable; no caller uses the result. *)
Definition narrow_u (w : Z) (f : M (option Z)) : M (option Z) :=
  let? v := f in ret (Some (v mod 2 ^ w)).
Definition narrow_s (w : Z) (f : M (option Z)) : M (option Z) :=
  let? v := f in ret (Some (sN w v)).

(** ** Deferred determinants, asn1crt_encoding_acn.h:300-503 *)
(** AcnBitStreamPos and AcnInsertedFieldRef, asn1crt_encoding_acn.h:304-318 *)
Record det : Type := mkdet {
  det_pos : Z * Z;      (* currentByte, currentBit *)
  det_set : bool;
  det_value : Z;
  det_str : list Z      (* str_value, 256 chars *)
}.
(** Acn_BitStream_GetPos, asn1crt_encoding_acn.h:320-325 *)
Definition Acn_BitStream_GetPos : M (Z * Z) := let* s := get in ret (curByte s, curBit s).
(** Acn_BitStream_SetPos, asn1crt_encoding_acn.h:327-330 *)
Definition Acn_BitStream_SetPos (p : Z * Z) : M unit := set_cur (fst p) (snd p).
(** Acn_BitStream_DistanceInBytes, asn1crt_encoding_acn.h:332-336; C division
    truncates. *)
Definition Acn_BitStream_DistanceInBytes (a b : Z * Z) : Z :=
  u64 (Z.quot ((fst b * 8 + snd b) - (fst a * 8 + snd a) + 7) 8).
(** Acn_BitStream_DistanceInBits, asn1crt_encoding_acn.h:338-342 *)
Definition Acn_BitStream_DistanceInBits (a b : Z * Z) : Z :=
  u64 ((fst b * 8 + snd b) - (fst a * 8 + snd a)).

(** Acn_InitDet_NAME of DEFINE_ACN_DET_ENCODERS (asn1crt_encoding_acn.h:354-360),
    _SIGNED (391-397), _CONSTSIZE (437-444), _SIGNED_CONSTSIZE (471-478); [enc]
    is encoder_fn. The old str_value is kept ([d0]). *)
Definition Acn_InitDet (enc : Z -> M unit) (d0 : det) : M det :=
  let* p := Acn_BitStream_GetPos in
  enc 0 ;;;
  ret (mkdet p false 0 (det_str d0)).

(** Acn_PatchDet_NAME of DEFINE_ACN_DET_ENCODERS (asn1crt_encoding_acn.h:361-378)
    and _SIGNED (398-415, where the value is converted to asn1SccSint). Result:
    the returned flag and the updated determinant; *err is set exactly when the
    flag is FALSE. *)
Definition Acn_PatchDet (enc : Z -> M unit) (v : Z) (d : det) : M (bool * det) :=
  if negb (det_set d) then
    let* cur := Acn_BitStream_GetPos in
    Acn_BitStream_SetPos (det_pos d) ;;;
    enc v ;;;
    Acn_BitStream_SetPos cur ;;;
    ret (true, mkdet (det_pos d) true v (det_str d))
  else ret (det_value d =? v, d).

(** Loop of asn1crt_encoding_acn.h:455-456, 486-487: nBits single bits of v. A
    shift amount of 64 or more is UB. *)
Fixpoint patch_bits (c : cfg) (v nBits i : Z) (k : nat) : M unit :=
  match k with
  | O => ret tt
  | S k' =>
      let sh := nBits - 1 - i in
      if 64 <=? sh then ub
      else BitStream_AppendBit c (negb (Z.land (Z.shiftr v sh) 1 =? 0)) ;;;
           patch_bits c v nBits (i + 1) k'
  end.
(** Acn_PatchDet_ConstSize and Acn_PatchDet_TwosComplement_ConstSize,
    asn1crt_encoding_acn.h:445-468, 479-500 *)
Definition Acn_PatchDet_ConstSize (c : cfg) (v nBits : Z) (d : det) : M (bool * det) :=
  Acn_PatchDet (fun v => patch_bits c v nBits 0 (Z.to_nat nBits)) v d.

(** Acn_Enc_Bool_1bit, asn1crt_encoding_acn.h:424-427 *)
Definition Acn_Enc_Bool_1bit (c : cfg) (v : Z) : M unit := BitStream_AppendBit c (negb (v =? 0)).

(** The instances, asn1crt_encoding_acn.h:381-387, 418-421, 428, 502-503 *)
Definition Acn_InitDet_U8 c := Acn_InitDet (Acn_Enc_Int_PositiveInteger_ConstSize_8 c).
Definition Acn_PatchDet_U8 c := Acn_PatchDet (Acn_Enc_Int_PositiveInteger_ConstSize_8 c).
Definition Acn_InitDet_UN_BE c size := Acn_InitDet (Acn_Enc_Int_PositiveInteger_ConstSize_big_endian c size).
Definition Acn_PatchDet_UN_BE c size := Acn_PatchDet (Acn_Enc_Int_PositiveInteger_ConstSize_big_endian c size).
Definition Acn_InitDet_UN_LE c size := Acn_InitDet (Acn_Enc_Int_PositiveInteger_ConstSize_little_endian c size).
Definition Acn_PatchDet_UN_LE c size := Acn_PatchDet (Acn_Enc_Int_PositiveInteger_ConstSize_little_endian c size).
Definition Acn_InitDet_I8 c := Acn_InitDet (Acn_Enc_Int_TwosComplement_ConstSize_8 c).
Definition Acn_PatchDet_I8 c :=
  Acn_PatchDet (fun v => Acn_Enc_Int_TwosComplement_ConstSize_8 c (s64 v)).
Definition Acn_InitDet_IN_BE c size := Acn_InitDet (Acn_Enc_Int_TwosComplement_ConstSize_big_endian c size).
Definition Acn_PatchDet_IN_BE c size :=
  Acn_PatchDet (fun v => Acn_Enc_Int_TwosComplement_ConstSize_big_endian c size (s64 v)).
Definition Acn_InitDet_BOOL1 c := Acn_InitDet (Acn_Enc_Bool_1bit c).
Definition Acn_PatchDet_BOOL1 c := Acn_PatchDet (Acn_Enc_Bool_1bit c).
Definition Acn_InitDet_ConstSize c n := Acn_InitDet (fun v => Acn_Enc_Int_PositiveInteger_ConstSize c v n).
Definition Acn_InitDet_TwosComplement_ConstSize c n :=
  Acn_InitDet (fun v => Acn_Enc_Int_TwosComplement_ConstSize c v n).
