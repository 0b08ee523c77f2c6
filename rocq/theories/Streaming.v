(** Streaming build (ASN1SCC_STREAMING): the buffer holds one block of [count]
    bytes. When it is full the encoder hands it to the user's pushData and
    starts again at its first byte; when it is exhausted the decoder asks the
    user's fetchData for the next block. asn1crt/asn1crt_encoding.c:121-530,
    1389-1468, 1785-1800; asn1crt_encoding_acn.c:13-62.

    Not modelled: streams without callback (pushDataPrm or fetchDataPrm NULL),
    which are the one-shot streams of BitStream.v; the bit patterns of
    1510-1560. *)
From Verif Require Import Base BitStream Ints.

(** [sb]: the BitStream; [sent]: bytes given to pushData so far; [src]: bytes
    fetchData has not delivered yet. *)
Record sstream : Type := mkss { sb : bstream; sent : list Z; src : list Z }.

Definition SM (A : Type) : Type := sstream -> outcome (A * sstream).
Definition sret {A} (a : A) : SM A := fun st => Ok (a, st).
Definition sbind {A B} (m : SM A) (k : A -> SM B) : SM B :=
  fun st => match m st with
            | Ok (a, st') => k a st'
            | Abort => Abort | UB => UB | Diverge => Diverge
            end.
Notation "'do' x '<-' m 'in' k" := (sbind m (fun x => k))
  (at level 200, x pattern, m at level 100, k at level 200, right associativity).
Notation "m ;>> k" := (sbind m (fun _ => k)) (at level 100, k at level 200, right associativity).
Definition sbindo {A B} (m : SM (option A)) (k : A -> SM (option B)) : SM (option B) :=
  do r <- m in match r with Some a => k a | None => sret None end.
Notation "'do?' x '<-' m 'in' k" := (sbindo m (fun x => k))
  (at level 200, x pattern, m at level 100, k at level 200, right associativity).
Definition sub_ {A} : SM A := fun _ => UB.
Definition sdiverge {A} : SM A := fun _ => Diverge.

(** A step that only touches the BitStream. *)
Definition onb {A} (f : M A) : SM A :=
  fun st => match f (sb st) with
            | Ok (a, s) => Ok (a, mkss s (sent st) (src st))
            | Abort => Abort | UB => UB | Diverge => Diverge
            end.

(** bitstream_push_data_if_required, asn1crt_encoding.c:1794-1799, with a
    pushData that sends the first [count] bytes of the buffer. The header leaves
    open whether pushData may clear the buffer it was given: [clear] says that
    it does; the one of Docs/examples/streaming_mode/c_out/mainprogram.c does
    not. *)
Definition push_if (clear : bool) : SM unit :=
  fun st =>
    let s := sb st in
    if curByte s =? count s then
      if Z.of_nat (length (buf s)) <? count s then UB
      else
        let n := Z.to_nat (count s) in
        let m := if clear then repeat 0 n ++ skipn n (buf s) else buf s in
        Ok (tt, mkss (mkbs m (count s) 0 (curBit s)) (sent st ++ firstn n (buf s)) (src st))
    else Ok (tt, st).

(** bitstream_fetch_data_if_required, asn1crt_encoding.c:1786-1791, with the
    fetchData of the same example: the buffer is zeroed and filled with as many
    bytes as are left. *)
Definition fetch_if : SM unit :=
  fun st =>
    let s := sb st in
    if curByte s =? count s then
      if Z.of_nat (length (buf s)) <? count s then UB
      else
        let n := Z.to_nat (count s) in
        let d := firstn n (src st) in
        let m := d ++ repeat 0 (n - length d) ++ skipn n (buf s) in
        Ok (tt, mkss (mkbs m (count s) 0 (curBit s)) (sent st) (skipn n (src st)))
    else Ok (tt, st).

(** ** Writing *)
(** Common tail of the single-bit writers, asn1crt_encoding.c:125-131 *)
Definition sstep_bit (clear : bool) : SM unit :=
  do s <- onb get in
  if curBit s <? 7 then onb (set_cur (curByte s) (curBit s + 1))
  else onb (set_cur (curByte s + 1) 0) ;>> push_if clear.

(** BitStream_AppendBit, asn1crt_encoding.c:209-227 *)
Definition sAppendBit (c : cfg) (clear : bool) (v : bool) : SM unit :=
  do s <- onb get in
  do m <- onb (tbl masks (curBit s)) in
  do b <- onb (rd (curByte s)) in
  onb (wr (curByte s) (if v then Z.lor b m else Z.land b (bnot m))) ;>>
  sstep_bit clear ;>> onb (check_stream c).

(** BitStream_AppendBitOne, asn1crt_encoding.c:121-133 *)
Definition sAppendBitOne (c : cfg) (clear : bool) : SM unit :=
  do s <- onb get in
  do m <- onb (tbl masks (curBit s)) in
  do b <- onb (rd (curByte s)) in
  onb (wr (curByte s) (Z.lor b m)) ;>>
  sstep_bit clear ;>> onb (check_stream c).

(** BitStream_AppendBitZero, asn1crt_encoding.c:150-162 *)
Definition sAppendBitZero (c : cfg) (clear : bool) : SM unit :=
  do s <- onb get in
  do m <- onb (tbl masks (curBit s)) in
  do b <- onb (rd (curByte s)) in
  onb (wr (curByte s) (Z.land b (bnot m))) ;>>
  sstep_bit clear ;>> onb (check_stream c).

(** BitStream_AppendNBitZero, asn1crt_encoding.c:164-179 *)
Definition sAppendNBitZero (clear : bool) (nbits : Z) : SM unit :=
  do s <- onb get in
  let totalBits := curBit s + nbits in
  let totalBytes := Z.quot totalBits 8 in
  let cb := Z.rem totalBits 8 in
  if curByte s + totalBytes <=? count s
  then onb (set_cur (curByte s + totalBytes) cb) ;>> push_if clear
  else
    let extraBytes := curByte s + totalBytes - count s in
    onb (set_cur (count s) cb) ;>>
    push_if clear ;>>
    onb (set_cur extraBytes cb).

(** BitStream_AppendByte, asn1crt_encoding.c:271-291 *)
Definition sAppendByte (c : cfg) (clear : bool) (v : Z) (negate : bool) : SM unit :=
  do s <- onb get in
  let cb := curBit s in
  let ncb := 8 - cb in
  let v := if negate then bnot v else v in
  do m0 <- onb (tbl masksb ncb) in
  let mask := bnot m0 in
  do b <- onb (rd (curByte s)) in
  onb (wr (curByte s) (Z.lor (Z.land b mask) (byte_of (Z.shiftr v cb)))) ;>>
  onb (set_cur (curByte s + 1) cb) ;>>
  push_if clear ;>>
  onb (check_stream c) ;>>
  if cb =? 0 then sret tt
  else
    let mask := bnot mask in
    do s2 <- onb get in
    do b2 <- onb (rd (curByte s2)) in
    onb (wr (curByte s2) (Z.lor (Z.land b2 mask) (byte_of (Z.shiftl v ncb)))).

(** BitStream_AppendByte0, asn1crt_encoding.c:293-312 *)
Definition sAppendByte0 (clear : bool) (v : Z) : SM bool :=
  do s <- onb get in
  let cb := curBit s in
  let ncb := 8 - cb in
  do m0 <- onb (tbl masksb ncb) in
  let mask := bnot m0 in
  do b <- onb (rd (curByte s)) in
  onb (wr (curByte s) (Z.lor (Z.land b mask) (byte_of (Z.shiftr v cb)))) ;>>
  onb (set_cur (curByte s + 1) cb) ;>>
  push_if clear ;>>
  if cb =? 0 then sret true
  else
    do s2 <- onb get in
    if count s2 <=? curByte s2 then sret false
    else
      let mask := bnot mask in
      do b2 <- onb (rd (curByte s2)) in
      onb (wr (curByte s2) (Z.lor (Z.land b2 mask) (byte_of (Z.shiftl v ncb)))) ;>>
      sret true.

(** BitStream_AppendNBitOne, asn1crt_encoding.c:181-192 *)
Fixpoint sappend_FFs (c : cfg) (clear : bool) (k : nat) : SM unit :=
  match k with
  | O => sret tt
  | S k' => sAppendByte c clear 255 false ;>> sappend_FFs c clear k'
  end.
Fixpoint sappend_ones (c : cfg) (clear : bool) (k : nat) : SM unit :=
  match k with
  | O => sret tt
  | S k' => sAppendBitOne c clear ;>> sappend_ones c clear k'
  end.
Definition sAppendNBitOne (c : cfg) (clear : bool) (nbits : Z) : SM unit :=
  if 8 <=? nbits
  then sappend_FFs c clear (Z.to_nat (nbits / 8)) ;>> sappend_ones c clear (Z.to_nat (nbits mod 8))
  else sappend_ones c clear (Z.to_nat nbits).

(** BitStream_AppendPartialByte, asn1crt_encoding.c:450-491 *)
Definition sAppendPartialByte (c : cfg) (clear : bool) (v nbits : Z) (negate : bool) : SM unit :=
  do s <- onb get in
  let cb := curBit s in
  let totalBits := cb + nbits in
  let ncb := 8 - cb in
  do v <- (if negate then do mn <- onb (tbl masksb nbits) in sret (Z.land mn (bnot v))
           else sret v) in
  do m0 <- onb (tbl masksb ncb) in
  let mask1 := bnot m0 in
  (if totalBits <=? 8 then
     do mask2 <- onb (tbl masksb (8 - totalBits)) in
     let mask := Z.lor mask1 mask2 in
     do b <- onb (rd (curByte s)) in
     onb (wr (curByte s) (Z.lor (Z.land b mask) (byte_of (Z.shiftl v (8 - totalBits))))) ;>>
     if cb + nbits =? 8 then onb (set_cur (curByte s + 1) 0) ;>> push_if clear
     else onb (set_cur (curByte s) (cb + nbits))
   else
     let tbn := totalBits - 8 in
     do b <- onb (rd (curByte s)) in
     onb (wr (curByte s) (Z.lor (Z.land b mask1) (byte_of (Z.shiftr v tbn)))) ;>>
     onb (set_cur (curByte s + 1) cb) ;>>
     push_if clear ;>>
     do mt <- onb (tbl masksb (8 - tbn)) in
     let mask := bnot mt in
     do s2 <- onb get in
     do b2 <- onb (rd (curByte s2)) in
     onb (wr (curByte s2) (Z.lor (Z.land b2 mask) (byte_of (Z.shiftl v (8 - tbn))))) ;>>
     onb (set_cur (curByte s2) tbn)) ;>>
  onb (check_stream c).

(** Middle loop of BitStream_AppendByteArray, asn1crt_encoding.c:340-348 *)
Fixpoint sappend_mid (clear : bool) (cb ncb : Z) (vs : list Z) : SM unit :=
  match vs with
  | [] => sret tt
  | v :: t =>
      do s <- onb get in
      do b <- onb (rd (curByte s)) in
      onb (wr (curByte s) (Z.lor b (byte_of (Z.shiftr v cb)))) ;>>
      onb (set_cur (curByte s + 1) (curBit s)) ;>>
      push_if clear ;>>
      do s2 <- onb get in
      do b2 <- onb (rd (curByte s2)) in
      onb (wr (curByte s2) (Z.lor b2 (byte_of (Z.shiftl v ncb)))) ;>>
      sappend_mid clear cb ncb t
  end.

(** BitStream_AppendByteArray, asn1crt_encoding.c:314-358 *)
Definition sAppendByteArray (clear : bool) (arr : list Z) (arr_len : Z) : SM bool :=
  do s <- onb get in
  let cb := curBit s in
  let ncb := 8 - cb in
  do m0 <- onb (tbl masksb ncb) in
  let mask := bnot m0 in
  let nmask := bnot mask in
  if count s * 8 <? (curByte s + arr_len) * 8 + cb then sret false
  else
    (if 0 <? arr_len then
       do v <- onb (lift (nthZ arr 0)) in
       do b <- onb (rd (curByte s)) in
       onb (wr (curByte s) (Z.lor (Z.land b mask) (byte_of (Z.shiftr v cb)))) ;>>
       onb (set_cur (curByte s + 1) cb) ;>>
       push_if clear ;>>
       do s2 <- onb get in
       do b2 <- onb (rd (curByte s2)) in
       onb (wr (curByte s2) (Z.lor (Z.land b2 nmask) (byte_of (Z.shiftl v ncb))))
     else sret tt) ;>>
    (if Z.of_nat (length arr) <? arr_len then sub_
     else sappend_mid clear cb ncb (firstn (Z.to_nat (arr_len - 2)) (tl arr))) ;>>
    (if 0 <? arr_len - 1 then
       do s2 <- onb get in
       do v <- onb (lift (nthZ arr (arr_len - 1))) in
       do b <- onb (rd (curByte s2)) in
       onb (wr (curByte s2) (Z.lor (Z.land b mask) (byte_of (Z.shiftr v cb)))) ;>>
       onb (set_cur (curByte s2 + 1) cb) ;>>
       push_if clear ;>>
       if cb =? 0 then sret tt
       else
         do s3 <- onb get in
         do b2 <- onb (rd (curByte s3)) in
         onb (wr (curByte s3) (Z.lor (Z.land b2 nmask) (byte_of (Z.shiftl v ncb))))
     else sret tt) ;>>
    sret true.

(** while (remainingBytesToSend > 0), asn1crt_encoding.c:1396-1407: every batch
    is copied from the start of [arr]. An endless loop (empty batches) is
    [Diverge]. *)
Fixpoint ssend_loop (clear : bool) (fuel : nat) (arr : list Z) (remaining : Z) : SM unit :=
  if 0 <? remaining then
    match fuel with
    | O => sdiverge
    | S f =>
        do s <- onb get in
        let batch := if curByte s + remaining <=? count s then remaining else count s - curByte s in
        (if (batch <? 0) || (Z.of_nat (length arr) <? batch) then sub_
         else onb (wr_many (curByte s) (firstn (Z.to_nat batch) arr))) ;>>
        onb (set_cur (curByte s + batch) (curBit s)) ;>>
        push_if clear ;>>
        ssend_loop clear f arr (remaining - batch)
    end
  else sret tt.

(** BitStream_EncodeOctetString_no_length, asn1crt_encoding.c:1389-1428
    (streaming). Every batch but the first is a whole block, so [nCount + 1]
    rounds are enough. *)
Definition sEncodeOctets (clear : bool) (arr : list Z) (nCount : Z) : SM bool :=
  do s <- onb get in
  if curBit s =? 0 then ssend_loop clear (S (Z.to_nat nCount)) arr nCount ;>> sret true
  else sAppendByteArray clear arr nCount.

(** BitStream_AppendBits, asn1crt_encoding.c:194-207 *)
Definition sAppendBits (c : cfg) (clear : bool) (srcb : list Z) (nbits : Z) : SM unit :=
  let bytesToEncode := Z.quot nbits 8 in
  let remainingBits := Z.rem nbits 8 in
  do _ <- sEncodeOctets clear srcb bytesToEncode in
  if 0 <? remainingBits then
    do b <- onb (lift (nthZ srcb bytesToEncode)) in
    sAppendPartialByte c clear (byte_of (Z.shiftr b (8 - remainingBits))) remainingBits false
  else sret tt.

(** ** Reading *)
(** BitStream_ReadBit, asn1crt_encoding.c:230-242 *)
Definition sReadBit : SM (bool * bool) :=
  do s <- onb get in
  do m <- onb (tbl masks (curBit s)) in
  do b <- onb (rd (curByte s)) in
  (if curBit s <? 7 then onb (set_cur (curByte s) (curBit s + 1))
   else onb (set_cur (curByte s + 1) 0) ;>> fetch_if) ;>>
  do s' <- onb get in
  sret (in_stream s', negb (Z.land b m =? 0)).

(** BitStream_ReadByte, asn1crt_encoding.c:361-383 *)
Definition sReadByte : SM (option Z) :=
  do s <- onb get in
  let cb := curBit s in
  let requiredBytes := if 0 <? cb then 2 else 1 in
  let availableBytes := count s - curByte s in
  if availableBytes <? requiredBytes then sret None
  else
    do b <- onb (rd (curByte s)) in
    let v := byte_of (Z.shiftl b cb) in
    onb (set_cur (curByte s + 1) cb) ;>>
    fetch_if ;>>
    if 0 <? cb then
      do s2 <- onb get in
      do b2 <- onb (rd (curByte s2)) in
      sret (Some (Z.lor v (byte_of (Z.shiftr b2 (8 - cb)))))
    else sret (Some v).

(** BitStream_ReadPartialByte, asn1crt_encoding.c:494-519 *)
Definition sReadPartialByte (nbits : Z) : SM (option Z) :=
  do s <- onb get in
  let cb := curBit s in
  let totalBits := cb + nbits in
  do mn <- onb (tbl masksb nbits) in
  do v <-
    (if totalBits <=? 8 then
       do b <- onb (rd (curByte s)) in
       (if cb + nbits =? 8 then onb (set_cur (curByte s + 1) 0) ;>> fetch_if
        else onb (set_cur (curByte s) (cb + nbits))) ;>>
       sret (byte_of (Z.land (Z.shiftr b (8 - totalBits)) mn))
     else
       let tbn := totalBits - 8 in
       do b <- onb (rd (curByte s)) in
       onb (set_cur (curByte s + 1) cb) ;>>
       fetch_if ;>>
       do s2 <- onb get in
       do b2 <- onb (rd (curByte s2)) in
       onb (set_cur (curByte s2) tbn) ;>>
       sret (Z.land (Z.lor (byte_of (Z.shiftl b tbn)) (byte_of (Z.shiftr b2 (8 - tbn)))) mn)) in
  do s' <- onb get in
  sret (if in_stream s' then Some v else None).

(** Loop of BitStream_ReadByteArray, asn1crt_encoding.c:399-405: the pointer
    moves on, currentByte does not. *)
Fixpoint sread_loop (i cb ncb : Z) (k : nat) : SM (list Z) :=
  match k with
  | O => sret []
  | S k' =>
      do b <- onb (rd i) in
      fetch_if ;>>
      do b2 <- onb (rd (i + 1)) in
      let w := Z.lor (byte_of (Z.shiftl b cb)) (byte_of (Z.shiftr b2 ncb)) in
      do ws <- sread_loop (i + 1) cb ncb k' in
      sret (w :: ws)
  end.

(** BitStream_ReadByteArray, asn1crt_encoding.c:388-408 (streaming: no test of
    the length) *)
Definition sReadByteArray (arr_len : Z) : SM (option (list Z)) :=
  do s <- onb get in
  let cb := curBit s in
  do ws <- sread_loop (curByte s) cb (8 - cb) (Z.to_nat arr_len) in
  do s2 <- onb get in
  onb (set_cur (curByte s2 + arr_len) cb) ;>>
  sret (Some ws).

(** while (remainingBytesToRead > 0), asn1crt_encoding.c:1437-1448: every batch
    is copied to the start of [arr]. *)
Fixpoint sfetch_loop (fuel : nat) (arr : list Z) (remaining : Z) : SM (list Z) :=
  if 0 <? remaining then
    match fuel with
    | O => sdiverge
    | S f =>
        do s <- onb get in
        let batch := if curByte s + remaining <=? count s then remaining else count s - curByte s in
        do d <- onb (rd_many (curByte s) batch) in
        (if Z.of_nat (length arr) <? batch then sub_ else sret tt) ;>>
        onb (set_cur (curByte s + batch) (curBit s)) ;>>
        fetch_if ;>>
        sfetch_loop f (blit arr 0 d) (remaining - batch)
    end
  else sret arr.

(** BitStream_DecodeOctetString_no_length, asn1crt_encoding.c:1430-1468
    (streaming); [arr] is the destination array before the call. *)
Definition sDecodeOctets (arr : list Z) (nCount : Z) : SM (option (list Z)) :=
  do s <- onb get in
  if curBit s =? 0 then do d <- sfetch_loop (S (Z.to_nat nCount)) arr nCount in sret (Some d)
  else sReadByteArray nCount.

(** ** Alignment, asn1crt_encoding_acn.c:13-62; [push_if] for an encoder and
    [fetch_if] for a decoder. *)
Definition scheck_pre (c : cfg) (nbits : Z) : SM unit :=
  do s <- onb get in onb (massert c (curByte s * 8 + curBit s + nbits <=? count s * 8)).
(** Acn_AlignToNextByte, asn1crt_encoding_acn.c:13-28 *)
Definition sAlignToNextByte (c : cfg) (next : SM unit) : SM unit :=
  do s <- onb get in
  scheck_pre c (Z.land (8 - curBit s) 7) ;>>
  if negb (curBit s =? 0) then
    onb (set_cur (curByte s + 1) 0) ;>> next ;>> onb (check_stream c)
  else sret tt.
(** Acn_AlignToNextWord and Acn_AlignToNextDWord, asn1crt_encoding_acn.c:30-62 *)
Definition sAlignToNextN (c : cfg) (next : SM unit) (w : Z) : SM unit :=
  do s <- onb get in
  scheck_pre c (Z.land (8 * w - (8 * Z.land (curByte s) (w - 1) + curBit s)) (8 * w - 1)) ;>>
  sAlignToNextByte c next ;>>
  do s <- onb get in
  onb (set_cur (Z.quot (curByte s + (w - 1)) w * w) (curBit s)) ;>>
  next ;>>
  onb (check_stream c).

(** ** Integers: the same code over the streaming primitives,
    asn1crt_encoding.c:535-1000 *)
Definition slift {A} (o : outcome A) : SM A := onb (lift o).

(** while (cc) of asn1crt_encoding.c:574-578 *)
Fixpoint senc32_bytes (c : cfg) (clear : bool) (fuel : nat) (v cc : Z) (negate : bool) : SM unit :=
  match fuel with
  | O => sdiverge
  | S f =>
      if cc =? 0 then sret tt
      else
        do m <- onb (tbl masks2 (Z.shiftr cc 3)) in
        let t1 := Z.land v m in
        let cc := cc - 8 in
        sAppendByte c clear (byte_of (Z.shiftr t1 cc)) negate ;>>
        senc32_bytes c clear f v cc negate
  end.

(** BitStream_EncodeNonNegativeInteger32Neg, asn1crt_encoding.c:535-580 *)
Definition sEncode32Neg (c : cfg) (clear : bool) (v : Z) (negate : bool) : SM unit :=
  if v =? 0 then sret tt
  else
    let '(cc, curMask) :=
      if v <? 0x100 then (8, 0x80)
      else if v <? 0x10000 then (16, 0x8000)
      else if v <? 0x1000000 then (24, 0x800000)
      else (32, 0x80000000) in
    do cc <- slift (msb_loop 33 v curMask cc) in
    let pbits := Z.rem cc 8 in
    if negb (pbits =? 0) then
      let cc := cc - pbits in
      sAppendPartialByte c clear (byte_of (Z.shiftr v cc)) (byte_of pbits) negate ;>>
      senc32_bytes c clear 5 v cc negate
    else senc32_bytes c clear 5 v cc negate.

(** BitStream_EncodeNonNegativeInteger, asn1crt_encoding.c:608-627 *)
Definition sEncodeNonNeg (c : cfg) (clear : bool) (v : Z) : SM unit :=
  if v <? 0x100000000 then sEncode32Neg c clear (u32 v) false
  else
    let hi := u32 (Z.shiftr v 32) in
    let lo := u32 v in
    sEncode32Neg c clear hi false ;>>
    do nBits <- slift (GetNumberOfBitsForNonNegativeInteger lo) in
    sAppendNBitZero clear (32 - nBits) ;>>
    sEncode32Neg c clear lo false.

(** BitStream_EncodeNonNegativeIntegerNeg, asn1crt_encoding.c:656-677 *)
Definition sEncodeNonNegNeg (c : cfg) (clear : bool) (v : Z) (negate : bool) : SM unit :=
  if v <? 0x100000000 then sEncode32Neg c clear (u32 v) negate
  else
    let hi := u32 (Z.shiftr v 32) in
    let lo := u32 v in
    sEncode32Neg c clear hi negate ;>>
    let lo := if negate then u32 (Z.lnot lo) else lo in
    do nBits <- slift (GetNumberOfBitsForNonNegativeInteger lo) in
    sAppendNBitZero clear (32 - nBits) ;>>
    sEncode32Neg c clear lo false.

(** BitStream_EncodeConstraintWholeNumber, asn1crt_encoding.c:769-782 *)
Definition sEncodeConstraint (c : cfg) (clear : bool) (v min max : Z) : SM unit :=
  onb (massert c (min <=? max)) ;>>
  do d <- slift (sres c (max - min)) in
  let range := u64 d in
  if range =? 0 then sret tt
  else
    do nRangeBits <- slift (GetNumberOfBitsForNonNegativeInteger range) in
    do e <- slift (sres c (v - min)) in
    do nBits <- slift (GetNumberOfBitsForNonNegativeInteger (u64 e)) in
    sAppendNBitZero clear (nRangeBits - nBits) ;>>
    sEncodeNonNeg c clear (u64 e).

(** BitStream_EncodeConstraintPosWholeNumber, asn1crt_encoding.c:784-798 *)
Definition sEncodeConstraintPos (c : cfg) (clear : bool) (v min max : Z) : SM unit :=
  onb (massert c (min <=? v)) ;>>
  onb (massert c (v <=? max)) ;>>
  let range := u64 (max - min) in
  if range =? 0 then sret tt
  else
    do nRangeBits <- slift (GetNumberOfBitsForNonNegativeInteger range) in
    do nBits <- slift (GetNumberOfBitsForNonNegativeInteger (u64 (v - min))) in
    sAppendNBitZero clear (nRangeBits - nBits) ;>>
    sEncodeNonNeg c clear (u64 (v - min)).

(** BitStream_EncodeSemiConstraintWholeNumber, asn1crt_encoding.c:916-928 *)
Definition sEncodeSemi (c : cfg) (clear : bool) (v min : Z) : SM unit :=
  onb (massert c (min <=? v)) ;>>
  do d <- slift (sres c (v - min)) in
  let u := u64 d in
  let nBytes := GetLengthInBytesOfUInt u in
  sEncodeConstraint c clear nBytes 0 255 ;>>
  do nb <- slift (GetNumberOfBitsForNonNegativeInteger u) in
  sAppendNBitZero clear (nBytes * 8 - nb) ;>>
  sEncodeNonNeg c clear u.

(** BitStream_EncodeSemiConstraintPosWholeNumber, asn1crt_encoding.c:930-942 *)
Definition sEncodeSemiPos (c : cfg) (clear : bool) (v min : Z) : SM unit :=
  onb (massert c (min <=? v)) ;>>
  let u := u64 (v - min) in
  let nBytes := GetLengthInBytesOfUInt u in
  sEncodeConstraint c clear nBytes 0 255 ;>>
  do nb <- slift (GetNumberOfBitsForNonNegativeInteger u) in
  sAppendNBitZero clear (nBytes * 8 - nb) ;>>
  sEncodeNonNeg c clear u.

(** BitStream_EncodeUnConstraintWholeNumber, asn1crt_encoding.c:984-999 *)
Definition sEncodeUnc (c : cfg) (clear : bool) (v : Z) : SM unit :=
  do nBytes <- slift (GetLengthInBytesOfSInt c v) in
  sEncodeConstraint c clear nBytes 0 255 ;>>
  if 0 <=? v then
    do nb <- slift (GetNumberOfBitsForNonNegativeInteger (u64 v)) in
    sAppendNBitZero clear (nBytes * 8 - nb) ;>>
    sEncodeNonNeg c clear (u64 v)
  else
    do u <- slift (neg_m1 c v) in
    do nb <- slift (GetNumberOfBitsForNonNegativeInteger u) in
    sAppendNBitOne c clear (nBytes * 8 - nb) ;>>
    sEncodeNonNegNeg c clear u true.

(** while (nBits >= 8) of asn1crt_encoding.c:588-594 *)
Fixpoint sdec32_bytes (k : nat) (v : Z) : SM (option Z) :=
  match k with
  | O => sret (Some v)
  | S k' =>
      do? b <- sReadByte in
      sdec32_bytes k' (Z.lor (u32 (Z.shiftl v 8)) b)
  end.

(** BitStream_DecodeNonNegativeInteger32Neg, asn1crt_encoding.c:582-604 *)
Definition sDecode32Neg (nBits : Z) : SM (option Z) :=
  if nBits <? 0 then sub_
  else
    do? v <- sdec32_bytes (Z.to_nat (nBits / 8)) 0 in
    let r := nBits mod 8 in
    if r =? 0 then sret (Some v)
    else
      do? b <- sReadPartialByte r in
      sret (Some (Z.lor (u32 (Z.shiftl v r)) b)).

(** BitStream_DecodeNonNegativeInteger, asn1crt_encoding.c:630-653 *)
Definition sDecodeNonNeg (nBits : Z) : SM (option Z) :=
  if nBits <=? 32 then sDecode32Neg nBits
  else
    do? hi <- sDecode32Neg 32 in
    do? lo <- sDecode32Neg (nBits - 32) in
    if 96 <=? nBits then sub_
    else sret (Some (Z.lor (u64 (Z.shiftl hi (nBits - 32))) lo)).

(** BitStream_DecodeConstraintWholeNumber, asn1crt_encoding.c:801-827; [assert_or_false]
    of Ints.v is spelled out. *)
Definition sDecodeConstraint (c : cfg) (min max : Z) : SM (option Z) :=
  do d <- slift (sres c (max - min)) in
  let range := u64 d in
  if min <=? max then
    if range =? 0 then sret (Some min)
    else
      do nRangeBits <- slift (GetNumberOfBitsForNonNegativeInteger range) in
      do? uv <- sDecodeNonNeg nRangeBits in
      if range <? uv then sret None
      else do v <- slift (sres c (s64 uv + min)) in sret (Some v)
  else if ndebug c then sret None else (fun _ => Abort).
