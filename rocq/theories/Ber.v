(** BER runtime, asn1crt/asn1crt_encoding_ber.c (WORD_SIZE = 8). pErrCode is not
    modelled: every FALSE comes with an error code, which nothing here reads.
    Characters are modelled by their byte values. *)
From Verif Require Import Base BitStream Ints Misc RealSpec RealC ByteStream.

(** ByteStream_PutByte, asn1crt_encoding_ber.c:14-22 *)
Definition ByteStream_PutByte (v : Z) : B (option unit) :=
  do* s := bget in
  if cur s + 1 >? size s + 1 then bret None
  else
    do* _ := bwr (cur s) v in
    do* _ := bseek (cur s + 1) in
    bret (Some tt).
(** ByteStream_GetByte, :24-30 *)
Definition ByteStream_GetByte : B (option Z) :=
  do* s := bget in
  if cur s + 1 >? size s + 1 then bret None
  else
    do* v := brd (cur s) in
    do* _ := bseek (cur s + 1) in
    bret (Some v).

(** The loop of BerEncodeUInt, :46-56; [k] is i + 1, [w] is wFlag. *)
Fixpoint put_uint (k : nat) (v : Z) (w : bool) : B (option unit) :=
  match k with
  | O => bret (Some tt)
  | S i =>
      do* m := blift (nthZ ber_aux (Z.of_nat i)) in
      let b := byte_of (Z.shiftr (Z.land v m) (8 * Z.of_nat i)) in
      let w := w || negb (b =? 0) in
      do? _ := if w then ByteStream_PutByte b else bret (Some tt) in
      put_uint i v w
  end.
(** BerEncodeUInt, :33-59 *)
Definition BerEncodeUInt (v : Z) : B (option unit) :=
  if v =? 0 then ByteStream_PutByte 0 else put_uint 8 v false.
(** BerEncodeUInt2, :61-74 *)
Fixpoint put_uint2 (k : nat) (v : Z) : B (option unit) :=
  match k with
  | O => bret (Some tt)
  | S i =>
      do* m := blift (nthZ ber_aux (Z.of_nat i)) in
      do? _ := ByteStream_PutByte (byte_of (Z.shiftr (Z.land v m) (8 * Z.of_nat i))) in
      put_uint2 i v
  end.
Definition BerEncodeUInt2 (v n : Z) : B (option unit) := put_uint2 (Z.to_nat n) v.

(** BerEncodeTag, :77-79 *)
Definition BerEncodeTag (tag : Z) : B (option unit) := BerEncodeUInt tag.

(** while (tgCopy > 0) of BerDecodeTag, :91-94; fuel 9 covers 64 bits. *)
Fixpoint tag_size (fuel : nat) (t n : Z) : outcome Z :=
  match fuel with
  | O => Diverge
  | S f => if 0 <? t then tag_size f (Z.shiftr t 8) (n + 1) else Ok n
  end.
(** while (tagSize > 0), :97-105. The loop before has left 0 in tgCopy. *)
Fixpoint get_tag (k : nat) (t : Z) : B (option Z) :=
  match k with
  | O => bret (Some t)
  | S k' =>
      do? b := ByteStream_GetByte in
      get_tag k' (Z.lor (u64 (Z.shiftl t 8)) b)
  end.
(** BerDecodeTag, :81-113. 0x20 << n is a shift of an int: undefined for n >= 32. *)
Definition BerDecodeTag (tag : Z) : B (option unit) :=
  do* n := blift (if tag =? 0 then Ok 1 else tag_size 9 tag 0) in
  let sh := (n - 1) * 8 in
  if (sh <? 0) || (32 <=? sh) then blift UB
  else
    let p := Z.shiftl 0x20 sh in
    do? t := get_tag (Z.to_nat n) 0 in
    if Z.lor tag p =? Z.lor t p then bret (Some tt) else bret None.

(** BerEncodeLengthStart, BerEncodeLengthEnd, :115-133 *)
Definition BerEncodeLengthStart : B (option unit) := ByteStream_PutByte 0x80.
Definition BerEncodeLengthEnd : B (option unit) :=
  do? _ := ByteStream_PutByte 0 in ByteStream_PutByte 0.

(** for of BerDecodeLength, :159-167: unsigned int *)
Fixpoint get_len (k : nat) (r : Z) : B (option Z) :=
  match k with
  | O => bret (Some r)
  | S k' =>
      do? b := ByteStream_GetByte in
      get_len k' (Z.lor (u32 (Z.shiftl r 8)) b)
  end.
(** BerDecodeLength, :135-170. The conversion to int of a larger number wraps
    (implementation-defined). *)
Definition BerDecodeLength : B (option Z) :=
  do? b := ByteStream_GetByte in
  if Z.land b 0x80 =? 0 then bret (Some (Z.land b 0x7F))
  else
    let lenlen := Z.land b 0x7F in
    if lenlen =? 0 then bret (Some (-1))
    else do? r := get_len (Z.to_nat lenlen) 0 in bret (Some (s32 r)).

(** while (uv1 > 0) of BerEncodeLength, :186-189 *)
Fixpoint len_len (fuel : nat) (v n : Z) : outcome Z :=
  match fuel with
  | O => Diverge
  | S f => if 0 <? v then len_len f (Z.shiftr v 8) (byte_of (n + 1)) else Ok n
  end.
(** BerEncodeLength, :172-195; [v]: int *)
Definition BerEncodeLength (v : Z) : B (option unit) :=
  if v <=? 0x7F then ByteStream_PutByte (byte_of v)
  else
    do* n := blift (len_len 5 (u32 v) 0) in
    do? _ := ByteStream_PutByte (Z.lor n 0x80) in
    BerEncodeUInt (u64 v).

(** BerDecodeTwoZeroes, :197-219 *)
Definition BerDecodeTwoZeroes : B (option unit) :=
  do? a := ByteStream_GetByte in
  if negb (a =? 0) then bret None
  else
    do? b := ByteStream_GetByte in
    if negb (b =? 0) then bret None else bret (Some tt).

(** BerEncodeInteger, :221-240 *)
Definition BerEncodeInteger (c : cfg) (tag v : Z) : B (option unit) :=
  do? _ := BerEncodeTag tag in
  do* n := blift (GetLengthInBytesOfSInt c v) in
  let n := byte_of n in
  do? _ := ByteStream_PutByte n in
  do* u := blift (int2uint c v) in
  BerEncodeUInt2 u n.

(** for of BerDecodeInteger, :253-262 *)
Fixpoint get_uint (k : nat) (r : Z) : B (option Z) :=
  match k with
  | O => bret (Some r)
  | S k' =>
      do? b := ByteStream_GetByte in
      get_uint k' (Z.lor (u64 (Z.shiftl r 8)) b)
  end.
(** BerDecodeInteger, :242-266 *)
Definition BerDecodeInteger (c : cfg) (tag : Z) : B (option Z) :=
  do? _ := BerDecodeTag tag in
  do? n := BerDecodeLength in
  do? u := get_uint (Z.to_nat n) 0 in
  do* v := blift (uint2int c u n) in
  bret (Some v).

(** BerEncodeBoolean, :268-283; BerDecodeBoolean, :284-309 (flag is bool) *)
Definition BerEncodeBoolean (tag : Z) (v : bool) : B (option unit) :=
  do? _ := BerEncodeTag tag in
  do? _ := ByteStream_PutByte 1 in
  ByteStream_PutByte (if v then 0xFF else 0).
Definition BerDecodeBoolean (tag : Z) : B (option bool) :=
  do? _ := BerDecodeTag tag in
  do? n := BerDecodeLength in
  if negb (n =? 1) then bret None
  else do? b := ByteStream_GetByte in bret (Some (negb (b =? 0))).

(** Loops writing an array: value[i], i = i0 .. i0 + k - 1 *)
Fixpoint put_array (k : nat) (l : list Z) (i : Z) : B (option unit) :=
  match k with
  | O => bret (Some tt)
  | S k' =>
      do* b := blift (nthZ l i) in
      do? _ := ByteStream_PutByte b in
      put_array k' l (i + 1)
  end.

(** BerEncodeReal, :311-339. The local array is uninitialised, but
    BitStream_Init clears it. *)
Definition BerEncodeReal (c : cfg) (tag : Z) (v : double) : B (option unit) :=
  do* t := blift (BitStream_EncodeReal c v (mkbs (repeat 0 100) 100 0 0)) in
  let n := byte_of (BitStream_GetLength (snd t)) in
  do? _ := BerEncodeTag tag in
  put_array (Z.to_nat n) (buf (snd t)) 0.
(** BerDecodeReal, :341-365: a bit stream over the rest of the buffer. *)
Definition BerDecodeReal (c : cfg) (tag : Z) : B (option double) :=
  do? _ := BerDecodeTag tag in
  do* s := bget in
  if (cur s <? 0) || (Z.of_nat (length (mem s)) <? cur s) then blift UB
  else
    do* t := blift (BitStream_DecodeReal c (mkbs (skipn (Z.to_nat (cur s)) (mem s)) (size s - cur s) 0 0)) in
    match fst t with
    | None => bret None
    | Some x =>
        do* _ := bseek (cur s + BitStream_GetLength (snd t)) in
        bret (Some x)
    end.

(** BerEncodeIA5String, :367-382 *)
Definition BerEncodeIA5String (tag : Z) (l : list Z) (n : Z) : B (option unit) :=
  do? _ := BerEncodeTag tag in
  do? _ := BerEncodeLength n in
  put_array (Z.to_nat n) l 0.
(** memset(value, 0, max) *)
Definition memset0 (dst : list Z) (max : Z) : outcome (list Z) :=
  if (max <? 0) || (Z.of_nat (length dst) <? max) then UB
  else Ok (repeat 0 (Z.to_nat max) ++ skipn (Z.to_nat max) dst).
(** for (i..) { get; if (i < max) value[i] = curByte; } *)
Fixpoint get_array (k : nat) (dst : list Z) (i max : Z) : B (option (list Z)) :=
  match k with
  | O => bret (Some dst)
  | S k' =>
      do? b := ByteStream_GetByte in
      do* dst := blift (if i <? max then updZ dst i b else Ok dst) in
      get_array k' dst (i + 1) max
  end.
(** BerDecodeIA5String, :384-408. [dst]: the old content of value *)
Definition BerDecodeIA5String (tag : Z) (dst : list Z) (max : Z) : B (option (list Z)) :=
  do* dst := blift (memset0 dst max) in
  do? _ := BerDecodeTag tag in
  do? n := BerDecodeLength in
  get_array (Z.to_nat n) dst 0 max.

(** BerEncodeNull, :410-419; BerDecodeNull, :421-436 *)
Definition BerEncodeNull (tag : Z) : B (option unit) :=
  do? _ := BerEncodeTag tag in ByteStream_PutByte 0.
Definition BerDecodeNull (tag : Z) : B (option unit) :=
  do? _ := BerDecodeTag tag in
  do? n := BerDecodeLength in
  if negb (n =? 0) then bret None else bret (Some tt).

(** BerEncodeBitString, :438-467 *)
Definition BerEncodeBitString (tag : Z) (l : list Z) (bitCount : Z) : B (option unit) :=
  let n := Z.quot bitCount 8 in
  let unused := 8 - Z.rem bitCount 8 in
  let unused := if unused =? 8 then 0 else unused in
  let n := if Z.rem bitCount 8 =? 0 then n else n + 1 in
  do? _ := BerEncodeTag tag in
  do? _ := BerEncodeLength (n + 1) in
  do? _ := ByteStream_PutByte (byte_of unused) in
  put_array (Z.to_nat n) l 0.
(** for of BerDecodeBitString, :490-502 *)
Fixpoint get_bits (k : nat) (dst : list Z) (i maxb nbits unused : Z) : B (option (list Z * Z * Z)) :=
  match k with
  | O => bret (Some (dst, nbits, unused))
  | S k' =>
      do? b := ByteStream_GetByte in
      if i <? maxb then
        do* dst := blift (updZ dst i b) in
        get_bits k' dst (i + 1) maxb (nbits + 8) unused
      else get_bits k' dst (i + 1) maxb nbits 0
  end.
(** BerDecodeBitString, :469-511; the result is value and *bitCount. nbitCnt
    does not overflow if max <= 2^31 - 8. *)
Definition BerDecodeBitString (c : cfg) (tag : Z) (dst : list Z) (max : Z) : B (option (list Z * Z)) :=
  let maxb := if Z.rem max 8 =? 0 then Z.quot max 8 else Z.quot max 8 + 1 in
  do? _ := BerDecodeTag tag in
  do? n := BerDecodeLength in
  do? unused := ByteStream_GetByte in
  do* k := blift (ires c (n - 1)) in
  do? r := get_bits (Z.to_nat k) dst 0 maxb 0 unused in
  let '(dst, nb, unused) := r in
  bret (Some (dst, nb - unused)).

(** BerEncodeOctetString, :514-530 *)
Definition BerEncodeOctetString (tag : Z) (l : list Z) (n : Z) : B (option unit) :=
  do? _ := BerEncodeTag tag in
  do? _ := BerEncodeLength n in
  put_array (Z.to_nat n) l 0.
(** BerDecodeOctetString, :532-557; the result is value and *octCount *)
Definition BerDecodeOctetString (tag : Z) (dst : list Z) (max : Z) : B (option (list Z * Z)) :=
  do* dst := blift (memset0 dst max) in
  do? _ := BerDecodeTag tag in
  do? n := BerDecodeLength in
  let count := if n <=? max then n else max in
  do? dst := get_array (Z.to_nat n) dst 0 max in
  bret (Some (dst, count)).

(** NextTagMatches, :560-568; LA_Next_Two_Bytes_00, :572-581 *)
Definition NextTagMatches (tag : Z) : B bool :=
  do* s := bget in
  do* r := BerDecodeTag tag in
  do* _ := bseek (cur s) in
  bret (match r with Some _ => true | None => false end).
Definition LA_Next_Two_Bytes_00 : B bool :=
  do* s := bget in
  do* r := BerDecodeTwoZeroes in
  do* _ := bseek (cur s) in
  bret (match r with Some _ => true | None => false end).
