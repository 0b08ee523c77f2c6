(** Bit stream primitives, asn1crt/asn1crt_encoding.c:10-530 (non-streaming
    build: the bitstream_push/fetch_data_if_required calls are no-ops,
    asn1crt_encoding.h:40-43). *)
From Verif Require Import Base.

(** asn1crt_encoding.c:10-18 *)
Definition masks : list Z := [128; 64; 32; 16; 8; 4; 2; 1].
Definition masksb : list Z := [0; 1; 3; 7; 15; 31; 63; 127; 255].
Definition masks2 : list Z := [0; 255; 65280; 16711680; 4278190080].

(** (byte)~x *)
Definition bnot (x : Z) : Z := byte_of (Z.lnot x).

(** BitStream_Init, asn1crt_encoding.c:62-71: memset of the first [count] bytes
    of the caller's memory [mem]; UB if [mem] is shorter. *)
Definition BitStream_Init (mem : list Z) (n : Z) : outcome bstream :=
  if (n <? 0) || (Z.of_nat (length mem) <? n) then UB
  else Ok (mkbs (repeat 0 (Z.to_nat n) ++ skipn (Z.to_nat n) mem) n 0 0).

(** BitStream_AttachBuffer, asn1crt_encoding.c:80-88 *)
Definition BitStream_AttachBuffer (mem : list Z) (n : Z) : bstream :=
  mkbs mem n 0 0.

(** BitStream_GetLength, asn1crt_encoding.c:98-104 *)
Definition BitStream_GetLength (s : bstream) : Z :=
  if curBit s =? 0 then curByte s else curByte s + 1.

(** CHECK_BIT_STREAM condition, asn1crt.h:303 *)
Definition in_stream (s : bstream) : bool :=
  curByte s * 8 + curBit s <=? count s * 8.
Definition check_stream (c : cfg) : M unit :=
  let* s := get in massert c (in_stream s).

(** Common tail of the single-bit functions, e.g. asn1crt_encoding.c:125-131 *)
Definition step_bit : M unit :=
  let* s := get in
  if curBit s <? 7 then set_cur (curByte s) (curBit s + 1)
  else set_cur (curByte s + 1) 0.

(** BitStream_AppendBitOne, asn1crt_encoding.c:121-133 *)
Definition BitStream_AppendBitOne (c : cfg) : M unit :=
  let* s := get in
  let* m := tbl masks (curBit s) in
  let* b := rd (curByte s) in
  wr (curByte s) (Z.lor b m) ;;;
  step_bit ;;; check_stream c.

(** BitStream_AppendBitZero, asn1crt_encoding.c:150-162 *)
Definition BitStream_AppendBitZero (c : cfg) : M unit :=
  let* s := get in
  let* m := tbl masks (curBit s) in
  let* b := rd (curByte s) in
  wr (curByte s) (Z.land b (bnot m)) ;;;
  step_bit ;;; check_stream c.

(** BitStream_AppendNBitZero, asn1crt_encoding.c:164-179. Only moves the
    cursor; C division truncates. *)
Definition BitStream_AppendNBitZero (nbits : Z) : M unit :=
  let* s := get in
  let totalBits := curBit s + nbits in
  let totalBytes := Z.quot totalBits 8 in
  let cb := Z.rem totalBits 8 in
  if curByte s + totalBytes <=? count s
  then set_cur (curByte s + totalBytes) cb
  else set_cur (curByte s + totalBytes - count s) cb.

(** BitStream_AppendBit, asn1crt_encoding.c:209-227 *)
Definition BitStream_AppendBit (c : cfg) (v : bool) : M unit :=
  let* s := get in
  let* m := tbl masks (curBit s) in
  let* b := rd (curByte s) in
  wr (curByte s) (if v then Z.lor b m else Z.land b (bnot m)) ;;;
  step_bit ;;; check_stream c.

(** BitStream_ReadBit, asn1crt_encoding.c:230-242. The result is the returned
    flag together with *v, which is written in every case. *)
Definition BitStream_ReadBit : M (bool * bool) :=
  let* s := get in
  let* m := tbl masks (curBit s) in
  let* b := rd (curByte s) in
  step_bit ;;;
  let* s' := get in
  ret (in_stream s', negb (Z.land b m =? 0)).

(** BitStream_PeekBit, asn1crt_encoding.c:244-246 *)
Definition BitStream_PeekBit : M bool :=
  let* s := get in
  let* m := tbl masks (curBit s) in
  let* b := rd (curByte s) in
  ret (negb (Z.land b m =? 0)).

(** BitStream_AppendByte, asn1crt_encoding.c:271-291 *)
Definition BitStream_AppendByte (c : cfg) (v : Z) (negate : bool) : M unit :=
  let* s := get in
  let cb := curBit s in
  let ncb := 8 - cb in
  let v := if negate then bnot v else v in
  let* m0 := tbl masksb ncb in
  let mask := bnot m0 in
  let* b := rd (curByte s) in
  wr (curByte s) (Z.lor (Z.land b mask) (byte_of (Z.shiftr v cb))) ;;;
  set_cur (curByte s + 1) cb ;;;
  check_stream c ;;;
  if cb =? 0 then ret tt
  else
    let mask := bnot mask in
    let* b2 := rd (curByte s + 1) in
    wr (curByte s + 1) (Z.lor (Z.land b2 mask) (byte_of (Z.shiftl v ncb))).

(** BitStream_AppendByte0, asn1crt_encoding.c:293-312 *)
Definition BitStream_AppendByte0 (v : Z) : M bool :=
  let* s := get in
  let cb := curBit s in
  let ncb := 8 - cb in
  let* m0 := tbl masksb ncb in
  let mask := bnot m0 in
  let* b := rd (curByte s) in
  wr (curByte s) (Z.lor (Z.land b mask) (byte_of (Z.shiftr v cb))) ;;;
  set_cur (curByte s + 1) cb ;;;
  if cb =? 0 then ret true
  else if count s <=? curByte s + 1 then ret false
  else
    let mask := bnot mask in
    let* b2 := rd (curByte s + 1) in
    wr (curByte s + 1) (Z.lor (Z.land b2 mask) (byte_of (Z.shiftl v ncb))) ;;;
    ret true.

(** BitStream_AppendNBitOne, asn1crt_encoding.c:181-192: [nbits/8] whole bytes
    then [nbits%8] single bits (nothing when nbits <= 0). *)
Fixpoint append_FFs (c : cfg) (k : nat) : M unit :=
  match k with
  | O => ret tt
  | S k' => BitStream_AppendByte c 255 false ;;; append_FFs c k'
  end.
Fixpoint append_ones (c : cfg) (k : nat) : M unit :=
  match k with
  | O => ret tt
  | S k' => BitStream_AppendBitOne c ;;; append_ones c k'
  end.
Definition BitStream_AppendNBitOne (c : cfg) (nbits : Z) : M unit :=
  if 8 <=? nbits
  then append_FFs c (Z.to_nat (nbits / 8)) ;;; append_ones c (Z.to_nat (nbits mod 8))
  else append_ones c (Z.to_nat nbits).

(** Middle loop of BitStream_AppendByteArray, asn1crt_encoding.c:340-348 *)
Fixpoint append_mid (cb ncb : Z) (vs : list Z) : M unit :=
  match vs with
  | [] => ret tt
  | v :: t =>
      let* s := get in
      let* b := rd (curByte s) in
      wr (curByte s) (Z.lor b (byte_of (Z.shiftr v cb))) ;;;
      set_cur (curByte s + 1) (curBit s) ;;;
      let* b2 := rd (curByte s + 1) in
      wr (curByte s + 1) (Z.lor b2 (byte_of (Z.shiftl v ncb))) ;;;
      append_mid cb ncb t
  end.

(** BitStream_AppendByteArray, asn1crt_encoding.c:314-358. [arr] is the memory
    behind the pointer argument; an index beyond it is UB. *)
Definition BitStream_AppendByteArray (arr : list Z) (arr_len : Z) : M bool :=
  let* s := get in
  let cb := curBit s in
  let ncb := 8 - cb in
  let* m0 := tbl masksb ncb in
  let mask := bnot m0 in
  let nmask := bnot mask in
  if count s * 8 <? (curByte s + arr_len) * 8 + cb then ret false
  else
    (if 0 <? arr_len then
       let* v := lift (nthZ arr 0) in
       let* b := rd (curByte s) in
       wr (curByte s) (Z.lor (Z.land b mask) (byte_of (Z.shiftr v cb))) ;;;
       set_cur (curByte s + 1) cb ;;;
       let* b2 := rd (curByte s + 1) in
       wr (curByte s + 1) (Z.lor (Z.land b2 nmask) (byte_of (Z.shiftl v ncb)))
     else ret tt) ;;;
    (if Z.of_nat (length arr) <? arr_len then ub
     else append_mid cb ncb (firstn (Z.to_nat (arr_len - 2)) (tl arr))) ;;;
    (if 0 <? arr_len - 1 then
       let* s2 := get in
       let* v := lift (nthZ arr (arr_len - 1)) in
       let* b := rd (curByte s2) in
       wr (curByte s2) (Z.lor (Z.land b mask) (byte_of (Z.shiftr v cb))) ;;;
       set_cur (curByte s2 + 1) cb ;;;
       if cb =? 0 then ret tt
       else
         let* b2 := rd (curByte s2 + 1) in
         wr (curByte s2 + 1) (Z.lor (Z.land b2 nmask) (byte_of (Z.shiftl v ncb)))
     else ret tt) ;;;
    ret true.

(** BitStream_ReadByte, asn1crt_encoding.c:361-383. [None]: returned FALSE and
    *v is not written. *)
Definition BitStream_ReadByte : M (option Z) :=
  let* s := get in
  let cb := curBit s in
  let requiredBytes := if 0 <? cb then 2 else 1 in
  let availableBytes := count s - curByte s in
  if availableBytes <? requiredBytes then ret None
  else
    let* b := rd (curByte s) in
    let v := byte_of (Z.shiftl b cb) in
    set_cur (curByte s + 1) cb ;;;
    if 0 <? cb then
      let* b2 := rd (curByte s + 1) in
      ret (Some (Z.lor v (byte_of (Z.shiftr b2 (8 - cb)))))
    else ret (Some v).

(** Loop of BitStream_ReadByteArray, asn1crt_encoding.c:399-405 *)
Fixpoint read_loop (i cb ncb : Z) (k : nat) : M (list Z) :=
  match k with
  | O => ret []
  | S k' =>
      let* b := rd i in
      let* b2 := rd (i + 1) in
      let w := Z.lor (byte_of (Z.shiftl b cb)) (byte_of (Z.shiftr b2 ncb)) in
      let* ws := read_loop (i + 1) cb ncb k' in
      ret (w :: ws)
  end.

(** BitStream_ReadByteArray, asn1crt_encoding.c:388-408 (non-streaming). The
    bytes written to [arr] are returned. *)
Definition BitStream_ReadByteArray (arr_len : Z) : M (option (list Z)) :=
  let* s := get in
  let cb := curBit s in
  if count s * 8 <? (curByte s + arr_len) * 8 + cb then ret None
  else
    let* ws := read_loop (curByte s) cb (8 - cb) (Z.to_nat arr_len) in
    set_cur (curByte s + arr_len) cb ;;;
    ret (Some ws).

(** memcpy(&buf[curByte], arr, n) *)
Definition blit (m : list Z) (pos : nat) (src : list Z) : list Z :=
  firstn pos m ++ src ++ skipn (pos + length src) m.
Definition wr_many (i : Z) (src : list Z) : M unit :=
  fun s =>
    if (i <? 0) || (Z.of_nat (length (buf s)) <? i + Z.of_nat (length src)) then UB
    else Ok (tt, mkbs (blit (buf s) (Z.to_nat i) src) (count s) (curByte s) (curBit s)).
Definition rd_many (i n : Z) : M (list Z) :=
  fun s =>
    if (i <? 0) || (n <? 0) || (Z.of_nat (length (buf s)) <? i + n) then UB
    else Ok (firstn (Z.to_nat n) (skipn (Z.to_nat i) (buf s)), s).

(** BitStream_EncodeOctetString_no_length, asn1crt_encoding.c:1389-1428
    (non-streaming). *)
Definition BitStream_EncodeOctetString_no_length (arr : list Z) (nCount : Z) : M bool :=
  let* s := get in
  if curBit s =? 0 then
    if curByte s + nCount <=? count s then
      if (nCount <? 0) || (Z.of_nat (length arr) <? nCount) then ub
      else
        wr_many (curByte s) (firstn (Z.to_nat nCount) arr) ;;;
        set_cur (curByte s + nCount) (curBit s) ;;;
        ret true
    else ret false
  else BitStream_AppendByteArray arr nCount.

(** BitStream_DecodeOctetString_no_length, asn1crt_encoding.c:1430-1468
    (non-streaming). *)
Definition BitStream_DecodeOctetString_no_length (nCount : Z) : M (option (list Z)) :=
  let* s := get in
  if curBit s =? 0 then
    if curByte s + nCount <=? count s then
      let* d := rd_many (curByte s) nCount in
      set_cur (curByte s + nCount) (curBit s) ;;;
      ret (Some d)
    else ret None
  else BitStream_ReadByteArray nCount.

(** BitStream_AppendPartialByte, asn1crt_encoding.c:450-491 *)
Definition BitStream_AppendPartialByte (c : cfg) (v nbits : Z) (negate : bool) : M unit :=
  let* s := get in
  let cb := curBit s in
  let totalBits := cb + nbits in
  let ncb := 8 - cb in
  let* v := (if negate then let* mn := tbl masksb nbits in ret (Z.land mn (bnot v))
             else ret v) in
  let* m0 := tbl masksb ncb in
  let mask1 := bnot m0 in
  (if totalBits <=? 8 then
     let* mask2 := tbl masksb (8 - totalBits) in
     let mask := Z.lor mask1 mask2 in
     let* b := rd (curByte s) in
     wr (curByte s) (Z.lor (Z.land b mask) (byte_of (Z.shiftl v (8 - totalBits)))) ;;;
     if cb + nbits =? 8 then set_cur (curByte s + 1) 0
     else set_cur (curByte s) (cb + nbits)
   else
     let tbn := totalBits - 8 in
     let* b := rd (curByte s) in
     wr (curByte s) (Z.lor (Z.land b mask1) (byte_of (Z.shiftr v tbn))) ;;;
     let* mt := tbl masksb (8 - tbn) in
     let mask := bnot mt in
     let* b2 := rd (curByte s + 1) in
     wr (curByte s + 1) (Z.lor (Z.land b2 mask) (byte_of (Z.shiftl v (8 - tbn)))) ;;;
     set_cur (curByte s + 1) tbn) ;;;
  check_stream c.

(** BitStream_ReadPartialByte, asn1crt_encoding.c:494-519. [None]: returned
    FALSE; the out parameter was written but no caller uses it. *)
Definition BitStream_ReadPartialByte (nbits : Z) : M (option Z) :=
  let* s := get in
  let cb := curBit s in
  let totalBits := cb + nbits in
  let* mn := tbl masksb nbits in
  let* v :=
    (if totalBits <=? 8 then
       let* b := rd (curByte s) in
       (if cb + nbits =? 8 then set_cur (curByte s + 1) 0
        else set_cur (curByte s) (cb + nbits)) ;;;
       ret (byte_of (Z.land (Z.shiftr b (8 - totalBits)) mn))
     else
       let tbn := totalBits - 8 in
       let* b := rd (curByte s) in
       let* b2 := rd (curByte s + 1) in
       set_cur (curByte s + 1) tbn ;;;
       ret (Z.land (Z.lor (byte_of (Z.shiftl b tbn)) (byte_of (Z.shiftr b2 (8 - tbn)))) mn)) in
  let* s' := get in
  ret (if in_stream s' then Some v else None).

(** BitStream_AppendBits, asn1crt_encoding.c:194-207. The flag returned by the
    byte part is ignored by the code. *)
Definition BitStream_AppendBits (c : cfg) (src : list Z) (nbits : Z) : M unit :=
  let bytesToEncode := Z.quot nbits 8 in
  let remainingBits := Z.rem nbits 8 in
  let* _ := BitStream_EncodeOctetString_no_length src bytesToEncode in
  if 0 <? remainingBits then
    let* b := lift (nthZ src bytesToEncode) in
    BitStream_AppendPartialByte c (byte_of (Z.shiftr b (8 - remainingBits))) remainingBits false
  else ret tt.

(** BitStream_ReadBits, asn1crt_encoding.c:431-447 *)
Definition BitStream_ReadBits (nbits : Z) : M (option (list Z)) :=
  let bytesToRead := Z.quot nbits 8 in
  let remainingBits := Z.rem nbits 8 in
  let? d := BitStream_DecodeOctetString_no_length bytesToRead in
  if 0 <? remainingBits then
    let? b := BitStream_ReadPartialByte remainingBits in
    ret (Some (d ++ [byte_of (Z.shiftl b (8 - remainingBits))]))
  else ret (Some d).

(** BitString_equal, asn1crt_encoding.c:53-59 (memcmp over the whole bytes, then
    the significant bits of the last one). *)
Definition BitString_equal (n1 n2 : Z) (a1 a2 : list Z) : outcome bool :=
  if negb (n1 =? n2) then Ok false
  else
    let k := Z.quot n1 8 in
    if (Z.of_nat (length a1) <? k) || (Z.of_nat (length a2) <? k) then UB
    else
      let eqb_bytes := forallb (fun p => fst p =? snd p)
                         (combine (firstn (Z.to_nat k) a1) (firstn (Z.to_nat k) a2)) in
      if negb eqb_bytes then Ok false
      else if 0 <? Z.rem n1 8 then
        obind (nthZ a1 k) (fun x =>
        obind (nthZ a2 k) (fun y =>
          Ok (Z.shiftr x (8 - Z.rem n1 8) =? Z.shiftr y (8 - Z.rem n1 8))))
      else Ok true.
