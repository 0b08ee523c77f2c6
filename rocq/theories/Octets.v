(** Octet strings, bit strings, fragmentation, bit patterns:
    asn1crt/asn1crt_encoding.c:1323-1383, 1471-1780. *)
From Verif Require Import Base BitStream Ints.

(** ** Caller-provided destination arrays. Writing outside is UB. *)
Definition store (arr : list Z) (off : Z) (d : list Z) : outcome (list Z) :=
  if (off <? 0) || (Z.of_nat (length arr) <? off + Z.of_nat (length d)) then UB
  else Ok (blit arr (Z.to_nat off) d).

(** ** Fragmentation (X.691 11.9.3.8) *)

(** Block size and block identifier for a given number of remaining items,
    asn1crt_encoding.c:1480-1499, also 1660-1679 and uper_c.stg:620-639. *)
Definition frag_block (rem : Z) : Z * Z :=
  if 0x10000 <=? rem then (0x10000, 0xC4)
  else if 0xC000 <=? rem then (0xC000, 0xC3)
  else if 0x8000 <=? rem then (0x8000, 0xC2)
  else (0x4000, 0xC1).

(** Encoder loop shared by BitStream_EncodeOctetString_fragmentation
    (asn1crt_encoding.c:1478-1521), BitStream_EncodeBitString (1655-1695) and the
    generated Fragmentation_sqf_encode (uper_c.stg:614-669). [blk off len]
    encodes items off..off+len-1. [chk]: whether a failed item stops the loop
    (asn1crt_encoding.c:1478, 1501 test ret; uper_c.stg:618, 644 do not). *)
Fixpoint enc_frag (c : cfg) (chk : bool) (blk : Z -> Z -> M bool) (fuel : nat) (off rem : Z) : M bool :=
  match fuel with
  | O => diverge
  | S f =>
      if 0x4000 <=? rem then
        let (bs, id) := frag_block rem in
        BitStream_EncodeConstraintWholeNumber c id 0 0xFF ;;;
        let* r := blk off bs in
        if chk && negb r then ret false else enc_frag c chk blk f (off + bs) (rem - bs)
      else
        (if rem <=? 0x7F then BitStream_EncodeConstraintWholeNumber c rem 0 0xFF
         else BitStream_AppendBit c true ;;;
              BitStream_EncodeConstraintWholeNumber c rem 0 0x7FFF) ;;;
        blk off rem
  end.
(** Number of loop iterations: each one removes at least 0x4000 items. *)
Definition frag_fuel (n : Z) : nat := S (Z.to_nat (n / 0x4000)).

(** for loop with BitStream_AppendByte0, asn1crt_encoding.c:1501-1504, 1516-1519 *)
Fixpoint append_bytes0 (arr : list Z) (k : nat) (i : Z) : M bool :=
  match k with
  | O => ret true
  | S k' =>
      let* b := lift (nthZ arr i) in
      let* r := BitStream_AppendByte0 b in
      if r then append_bytes0 arr k' (i + 1) else ret false
  end.

(** BitStream_EncodeOctetString_fragmentation, asn1crt_encoding.c:1471-1523 *)
Definition BitStream_EncodeOctetString_fragmentation (c : cfg) (arr : list Z) (nCount : Z) : M bool :=
  if nCount <? 0 then ret false
  else enc_frag c true (fun off len => append_bytes0 arr (Z.to_nat len) off) (frag_fuel nCount) 0 nCount.

(** Block size for a block identifier, asn1crt_encoding.c:1537-1546 *)
Definition frag_size (h : Z) : option Z :=
  if h =? 0xC4 then Some 0x10000
  else if h =? 0xC3 then Some 0xC000
  else if h =? 0xC2 then Some 0x8000
  else if h =? 0xC1 then Some 0x4000
  else None.

(** Decoder loop shared by BitStream_DecodeOctetString_fragmentation
    (asn1crt_encoding.c:1533-1597), BitStream_DecodeBitString (1722-1776) and
    the generated Fragmentation_sqf_decode (uper_c.stg:762-851, variable size).
    [h] is the length octet just read, [a] the destination, [blk a off len]
    decodes items off..off+len-1 into it. nLengthTmp1 always equals nCurOffset1
    and is not kept separately. [szmin] is 1 in the runtime and nSizeMin in the
    generated code. *)
Fixpoint dec_frag {A} (c : cfg) (blk : A -> Z -> Z -> M (option A)) (szmin szmax : Z)
  (fuel : nat) (a : A) (off h : Z) : M (option (Z * A)) :=
  match fuel with
  | O => diverge
  | S f =>
      if Z.land h 0xC0 =? 0xC0 then
        match frag_size h with
        | None => ret None
        | Some bs =>
            if off + bs <=? szmax then
              let? a' := blk a off bs in
              let? h' := BitStream_DecodeConstraintWholeNumber c 0 0xFF in
              dec_frag c blk szmin szmax f a' (off + bs) h'
            else ret None
        end
      else
        let? rem :=
          (if 0 <? Z.land h 0x80 then
             let? len2 := BitStream_DecodeConstraintWholeNumber c 0 0xFF in
             ret (Some (Z.land (Z.lor (Z.shiftl h 8) len2) 0x7FFF))
           else ret (Some h)) in
        if off + rem <=? szmax then
          let? a' := blk a off rem in
          if (szmin <=? off + rem) && (off + rem <=? szmax) then ret (Some (off + rem, a'))
          else ret None
        else ret None
  end.

(** for loop with BitStream_ReadByte into arr, asn1crt_encoding.c:1549-1552 *)
Fixpoint read_bytes (k : nat) (arr : list Z) (i : Z) : M (option (list Z)) :=
  match k with
  | O => ret (Some arr)
  | S k' =>
      let? b := BitStream_ReadByte in
      let* arr' := lift (updZ arr i b) in
      read_bytes k' arr' (i + 1)
  end.

(** BitStream_DecodeOctetString_fragmentation, asn1crt_encoding.c:1525-1597.
    Result: *nCount and the contents of arr. *)
Definition BitStream_DecodeOctetString_fragmentation (c : cfg) (arr : list Z) (asn1SizeMax : Z)
  : M (option (Z * list Z)) :=
  let? h := BitStream_DecodeConstraintWholeNumber c 0 0xFF in
  dec_frag c (fun a off len => read_bytes (Z.to_nat len) a off) 1 asn1SizeMax (frag_fuel asn1SizeMax) arr 0 h.

(** BitStream_EncodeOctetString, asn1crt_encoding.c:1601-1618 *)
Definition BitStream_EncodeOctetString (c : cfg) (arr : list Z) (nCount szmin szmax : Z) : M bool :=
  if (szmin <=? nCount) && (nCount <=? szmax) then
    if szmax <? 65536 then
      (if negb (szmin =? szmax) then BitStream_EncodeConstraintWholeNumber c nCount szmin szmax else ret tt) ;;;
      BitStream_EncodeOctetString_no_length arr nCount
    else BitStream_EncodeOctetString_fragmentation c arr nCount
  else ret false.

(** BitStream_DecodeOctetString, asn1crt_encoding.c:1620-1641. The flag returned
    by BitStream_DecodeOctetString_no_length is ignored (l.1634): on failure arr
    keeps its old contents and the function still succeeds. *)
Definition BitStream_DecodeOctetString (c : cfg) (arr : list Z) (szmin szmax : Z) : M (option (Z * list Z)) :=
  if szmax <? 65536 then
    let? n := (if szmin <? szmax then BitStream_DecodeConstraintWholeNumber c szmin szmax
               else ret (Some szmin)) in
    if (szmin <=? n) && (n <=? szmax) then
      let* r := BitStream_DecodeOctetString_no_length n in
      match r with
      | Some d => let* arr' := lift (store arr 0 d) in ret (Some (n, arr'))
      | None => ret (Some (n, arr))
      end
    else ret None
  else BitStream_DecodeOctetString_fragmentation c arr szmax.

(** &arr[i] as a source for BitStream_AppendBits: the rest of the array. *)
Definition tail_from (arr : list Z) (i : Z) : list Z := skipn (Z.to_nat i) arr.

(** BitStream_EncodeBitString, asn1crt_encoding.c:1644-1699. Always TRUE. *)
Definition BitStream_EncodeBitString (c : cfg) (arr : list Z) (nCount szmin szmax : Z) : M bool :=
  if szmax <? 65536 then
    (if negb (szmin =? szmax) then BitStream_EncodeConstraintWholeNumber c nCount szmin szmax else ret tt) ;;;
    BitStream_AppendBits c arr nCount ;;;
    ret true
  else
    enc_frag c false
      (fun off len => BitStream_AppendBits c (tail_from arr (Z.quot off 8)) len ;;; ret true)
      (frag_fuel nCount) 0 nCount.

(** BitStream_ReadBits into &arr[off/8] *)
Definition read_bits_at (arr : list Z) (off len : Z) : M (option (list Z)) :=
  let? d := BitStream_ReadBits len in
  let* arr' := lift (store arr (Z.quot off 8) d) in
  ret (Some arr').

(** BitStream_DecodeBitString, asn1crt_encoding.c:1701-1781 *)
Definition BitStream_DecodeBitString (c : cfg) (arr : list Z) (szmin szmax : Z) : M (option (Z * list Z)) :=
  if szmax <? 65536 then
    let? n := (if negb (szmin =? szmax) then BitStream_DecodeConstraintWholeNumber c szmin szmax
               else ret (Some szmin)) in
    let? arr' := read_bits_at arr 0 n in
    ret (Some (n, arr'))
  else
    let? h := BitStream_DecodeConstraintWholeNumber c 0 0xFF in
    dec_frag c read_bits_at 1 szmax (frag_fuel szmax) arr 0 h.

(** ** Bit patterns *)

(** Body of BitStream_checkBitPatternPresent, asn1crt_encoding.c:1335-1358, for
    [n] remaining pattern bits; [i] indexes the pattern. Results: 0 a read
    failed, 1 mismatch, 2 match. *)
Fixpoint check_pattern (k : nat) (pat : list Z) (i n : Z) : M Z :=
  match k with
  | O =>
      if 0 <? n then
        let* r := BitStream_ReadPartialByte n in
        match r with
        | None => ret 0
        | Some b =>
            let* p := lift (nthZ pat i) in
            ret (if p =? byte_of (Z.shiftl b (8 - n)) then 2 else 1)
        end
      else ret 2
  | S k' =>
      let* r := BitStream_ReadByte in
      match r with
      | None => ret 0
      | Some b =>
          let* p := lift (nthZ pat i) in
          if p =? b then check_pattern k' pat (i + 1) (n - 8) else ret 1
      end
  end.

(** BitStream_checkBitPatternPresent, asn1crt_encoding.c:1323-1361. On a mismatch
    the cursor is restored. [n] is a size_t, so nonnegative. *)
Definition BitStream_checkBitPatternPresent (pat : list Z) (n : Z) : M Z :=
  let* s := get in
  if count s * 8 <? curByte s * 8 + curBit s + n then ret 0
  else
    let* r := check_pattern (Z.to_nat (n / 8)) pat 0 n in
    if r =? 1 then set_cur (curByte s) (curBit s) ;;; ret 1 else ret r.

(** Run an operation on another stream. *)
Definition on {A} (t : bstream) (m : M A) : M bstream :=
  lift (match m t with
        | Ok (_, t') => Ok t' | Abort => Abort | UB => UB | Diverge => Diverge end).

(** While loop of BitStream_ReadBits_nullterminated,
    asn1crt_encoding.c:1373-1380; [k] = nMaxReadBits - *bitsRead. Result: flag,
    checkBitPatternPresentResult, *bitsRead, tmpStrm. *)
Fixpoint readbits_loop (c : cfg) (k : nat) (pat : list Z) (n chk read : Z) (t : bstream)
  : M (bool * Z * Z * bstream) :=
  match k with
  | O => ret (true, chk, read, t)
  | S k' =>
      let* r := BitStream_checkBitPatternPresent pat n in
      if r =? 1 then
        let* b := BitStream_ReadBit in
        if fst b then
          let* t' := on t (BitStream_AppendBit c (snd b)) in
          readbits_loop c k' pat n r (read + 1) t'
        else ret (false, r, read, t)
      else ret (true, r, read, t)
  end.

(** BitStream_ReadBits_nullterminated, asn1crt_encoding.c:1364-1386. [dst] is
    BuffToWrite. Result on success: *bitsRead and the destination. *)
Definition BitStream_ReadBits_nullterminated (c : cfg) (pat : list Z) (n : Z) (dst : list Z) (nMax : Z)
  : M (option (Z * list Z)) :=
  let* t := lift (BitStream_Init dst (if Z.rem nMax 8 =? 0 then Z.quot nMax 8 else Z.quot nMax 8 + 1)) in
  let* r := readbits_loop c (Z.to_nat nMax) pat n 0 0 t in
  let '(ok, chk, rd, t') := r in
  let* chk' := (if ok && (rd =? nMax) && (chk =? 1)
                then BitStream_checkBitPatternPresent pat n else ret chk) in
  ret (if ok && (chk' =? 2) then Some (rd, buf t') else None).
