(** ACN character strings: asn1crt/asn1crt_encoding_acn.c:1153-1447, 2061-2096.
    The bytes behind a char pointer are a list of values 0..255; reading or
    writing outside the list is UB. Decoders take the destination array and
    return its new contents. *)
From Verif Require Import Base BitStream Ints Misc Octets Acn.

(** A byte read as (signed) char and promoted to int. *)
Definition schar (b : Z) : Z := sN 8 b.

(** strlen: UB without a zero byte. *)
Fixpoint strlen_from (mem : list Z) (r : Z) : outcome Z :=
  match mem with
  | [] => UB
  | b :: t => if b =? 0 then Ok r else strlen_from t (r + 1)
  end.
Definition strlen (mem : list Z) : outcome Z := strlen_from mem 0.

(** ** Encoders *)
(** Loop shared by Acn_Enc_String_Ascii_FixSize (asn1crt_encoding_acn.c:1155-1162)
    and Acn_Enc_String_CharIndex_FixSize (1203-1211); [k] is max - i. *)
Fixpoint enc_fix (put : Z -> M unit) (str : list Z) (k : nat) (i : Z) : M unit :=
  match k with
  | O => ret tt
  | S k' => let* ch := lift (nthZ str i) in put ch ;;; enc_fix put str k' (i + 1)
  end.
(** Loop shared by Acn_Enc_String_Ascii_private (asn1crt_encoding_acn.c:1164-1174)
    and Acn_Enc_String_CharIndex_private (1213-1226). The returned count is never
    used by a caller. *)
Fixpoint enc_str (put : Z -> M unit) (str : list Z) (k : nat) (i : Z) : M unit :=
  match k with
  | O => ret tt
  | S k' =>
      let* ch := lift (nthZ str i) in
      if ch =? 0 then ret tt else put ch ;;; enc_str put str k' (i + 1)
  end.
(** BitStream_AppendByte(pBitStrm, strVal[i], FALSE) *)
Definition put_ascii (c : cfg) (ch : Z) : M unit := BitStream_AppendByte c ch false.
(** asn1crt_encoding_acn.c:1207-1208, 1221-1222 *)
Definition put_index (c : cfg) (set : list Z) (size : Z) (ch : Z) : M unit :=
  let* idx := lift (GetCharIndex (schar ch) set size) in
  BitStream_EncodeConstraintWholeNumber c idx 0 (size - 1).

(** Acn_Enc_String_Ascii_FixSize, asn1crt_encoding_acn.c:1155-1162 *)
Definition Acn_Enc_String_Ascii_FixSize (c : cfg) (max : Z) (str : list Z) : M unit :=
  enc_fix (put_ascii c) str (Z.to_nat max) 0.
(** Acn_Enc_String_Ascii_private, asn1crt_encoding_acn.c:1164-1174 *)
Definition Acn_Enc_String_Ascii_private (c : cfg) (max : Z) (str : list Z) : M unit :=
  enc_str (put_ascii c) str (Z.to_nat max) 0.
(** Acn_Enc_String_Ascii_Null_Terminated, asn1crt_encoding_acn.c:1176-1180 *)
Definition Acn_Enc_String_Ascii_Null_Terminated (c : cfg) (max null : Z) (str : list Z) : M unit :=
  Acn_Enc_String_Ascii_private c max str ;;; put_ascii c null.
(** Acn_Enc_String_Ascii_Null_Terminated_mult, asn1crt_encoding_acn.c:1182-1188 *)
Definition Acn_Enc_String_Ascii_Null_Terminated_mult (c : cfg) (max : Z) (null : list Z) (n : Z)
  (str : list Z) : M unit :=
  Acn_Enc_String_Ascii_private c max str ;;; enc_fix (put_ascii c) null (Z.to_nat n) 0.
(** Acn_Enc_String_Ascii_External_Field_Determinant, asn1crt_encoding_acn.c:1191-1194 *)
Definition Acn_Enc_String_Ascii_External_Field_Determinant (c : cfg) (max : Z) (str : list Z) : M unit :=
  Acn_Enc_String_Ascii_private c max str.
(** int strLen = (int)strlen(strVal); the length field,
    asn1crt_encoding_acn.c:1198-1199, 1236-1237, 1271-1272 *)
Definition enc_strlen (c : cfg) (max min : Z) (str : list Z) : M unit :=
  let* l := lift (strlen str) in
  let n := s32 l in
  BitStream_EncodeConstraintWholeNumber c (if n <=? max then n else max) min max.
(** Acn_Enc_String_Ascii_Internal_Field_Determinant, asn1crt_encoding_acn.c:1196-1201 *)
Definition Acn_Enc_String_Ascii_Internal_Field_Determinant (c : cfg) (max min : Z) (str : list Z) : M unit :=
  enc_strlen c max min str ;;; Acn_Enc_String_Ascii_private c max str.
(** Acn_Enc_String_CharIndex_FixSize, asn1crt_encoding_acn.c:1203-1211 *)
Definition Acn_Enc_String_CharIndex_FixSize (c : cfg) (max : Z) (set : list Z) (size : Z) (str : list Z) : M unit :=
  enc_fix (put_index c set size) str (Z.to_nat max) 0.
(** Acn_Enc_String_CharIndex_private, asn1crt_encoding_acn.c:1213-1226 *)
Definition Acn_Enc_String_CharIndex_private (c : cfg) (max : Z) (set : list Z) (size : Z) (str : list Z) : M unit :=
  enc_str (put_index c set size) str (Z.to_nat max) 0.
(** Acn_Enc_String_CharIndex_External_Field_Determinant, asn1crt_encoding_acn.c:1229-1232 *)
Definition Acn_Enc_String_CharIndex_External_Field_Determinant (c : cfg) (max : Z) (set : list Z)
  (size : Z) (str : list Z) : M unit :=
  Acn_Enc_String_CharIndex_private c max set size str.
(** Acn_Enc_String_CharIndex_Internal_Field_Determinant, asn1crt_encoding_acn.c:1234-1239 *)
Definition Acn_Enc_String_CharIndex_Internal_Field_Determinant (c : cfg) (max : Z) (set : list Z)
  (size min : Z) (str : list Z) : M unit :=
  enc_strlen c max min str ;;; Acn_Enc_String_CharIndex_private c max set size str.

(** The table 0x00..0x7F of the IA5String functions,
    asn1crt_encoding_acn.c:1244-1253, 1260-1269, 1412-1424, 1431-1443. *)
Definition ia5_set : list Z := map Z.of_nat (seq 0 128).
(** Acn_Enc_IA5String_CharIndex_External_Field_Determinant, asn1crt_encoding_acn.c:1242-1256 *)
Definition Acn_Enc_IA5String_CharIndex_External_Field_Determinant (c : cfg) (max : Z) (str : list Z) : M unit :=
  Acn_Enc_String_CharIndex_private c max ia5_set 128 str.
(** Acn_Enc_IA5String_CharIndex_Internal_Field_Determinant, asn1crt_encoding_acn.c:1258-1274 *)
Definition Acn_Enc_IA5String_CharIndex_Internal_Field_Determinant (c : cfg) (max min : Z) (str : list Z) : M unit :=
  enc_strlen c max min str ;;; Acn_Enc_String_CharIndex_private c max ia5_set 128 str.

(** ** Decoders *)
(** memset(strVal, 0x0, (size_t)max + 1) *)
Definition clear (dst : list Z) (max : Z) : outcome (list Z) :=
  store dst 0 (repeat 0 (Z.to_nat (max + 1))).
(** while (i<charactersToDecode), asn1crt_encoding_acn.c:1285-1290, 1376-1384;
    [k] is charactersToDecode - i, [get1] reads one character. *)
Fixpoint dec_str (get1 : M (option Z)) (dst : list Z) (k : nat) (i : Z) : M (option (list Z)) :=
  match k with
  | O => ret (Some dst)
  | S k' =>
      let? ch := get1 in
      let* dst := lift (store dst i [ch]) in
      dec_str get1 dst k' (i + 1)
  end.
(** asn1crt_encoding_acn.c:1377-1382 *)
Definition get_index (c : cfg) (set : list Z) (size : Z) : M (option Z) :=
  let? idx := BitStream_DecodeConstraintWholeNumber c 0 (size - 1) in
  if (idx <? 0) || (size <=? idx) then ret None
  else let* ch := lift (nthZ set idx) in ret (Some ch).

(** Acn_Dec_String_Ascii_private, asn1crt_encoding_acn.c:1277-1292 *)
Definition Acn_Dec_String_Ascii_private (max n : Z) (dst : list Z) : M (option (list Z)) :=
  let* dst := lift (clear dst max) in
  dec_str BitStream_ReadByte dst (Z.to_nat n) 0.
(** Acn_Dec_String_Ascii_FixSize, asn1crt_encoding_acn.c:1295-1298 *)
Definition Acn_Dec_String_Ascii_FixSize (max : Z) (dst : list Z) : M (option (list Z)) :=
  Acn_Dec_String_Ascii_private max max dst.

(** while (i <= max), asn1crt_encoding_acn.c:1307-1318; [k] is max + 1 - i. *)
Fixpoint dec_null (null : Z) (dst : list Z) (k : nat) (i : Z) : M (option (list Z)) :=
  match k with
  | O => ret None
  | S k' =>
      let? ch := BitStream_ReadByte in
      if negb (ch =? null) then
        let* dst := lift (store dst i [ch]) in
        dec_null null dst k' (i + 1)
      else
        let* dst := lift (store dst i [0]) in
        ret (Some dst)
  end.
(** Acn_Dec_String_Ascii_Null_Terminated, asn1crt_encoding_acn.c:1302-1322;
    [null] is (byte)null_character. *)
Definition Acn_Dec_String_Ascii_Null_Terminated (max null : Z) (dst : list Z) : M (option (list Z)) :=
  let* dst := lift (clear dst max) in
  dec_null null dst (Z.to_nat (max + 1)) 0.

(** while (i <= max && memcmp(..) != 0), asn1crt_encoding_acn.c:1337-1344, and
    the lines after it, 1346-1347; [k] is max + 1 - i. *)
Fixpoint dec_null_mult (p w dst : list Z) (k : nat) (i : Z) : M (option (list Z)) :=
  let finish :=
    let* dst := lift (store dst i [0]) in
    let* e := lift (window_is p w) in
    ret (if e then Some dst else None) in
  match k with
  | O => finish
  | S k' =>
      let* e := lift (window_is p w) in
      if e then finish
      else
        let* dst := lift (store dst i [hd 0 w]) in
        let? b := BitStream_ReadByte in
        dec_null_mult p (tl w ++ [b]) dst k' (i + 1)
  end.
(** Acn_Dec_String_Ascii_Null_Terminated_mult, asn1crt_encoding_acn.c:1324-1349 *)
Definition Acn_Dec_String_Ascii_Null_Terminated_mult (max : Z) (p : list Z) (n : Z) (dst : list Z)
  : M (option (list Z)) :=
  let sz := if n <? 10 then n else 10 in
  let* dst := lift (clear dst max) in
  let? w := read_window (Z.to_nat sz) in
  dec_null_mult p w dst (Z.to_nat (max + 1)) 0.

(** Acn_Dec_String_Ascii_External_Field_Determinant, asn1crt_encoding_acn.c:1352-1355 *)
Definition Acn_Dec_String_Ascii_External_Field_Determinant (max ext : Z) (dst : list Z) : M (option (list Z)) :=
  Acn_Dec_String_Ascii_private max (if ext <=? max then ext else max) dst.
(** Acn_Dec_String_Ascii_Internal_Field_Determinant, asn1crt_encoding_acn.c:1357-1365 *)
Definition Acn_Dec_String_Ascii_Internal_Field_Determinant (c : cfg) (max min : Z) (dst : list Z) : M (option (list Z)) :=
  let? n := BitStream_DecodeConstraintWholeNumber c min max in
  Acn_Dec_String_Ascii_private max (if n <=? max then n else max) dst.

(** Acn_Dec_String_CharIndex_private, asn1crt_encoding_acn.c:1367-1386 *)
Definition Acn_Dec_String_CharIndex_private (c : cfg) (max n : Z) (set : list Z) (size : Z) (dst : list Z)
  : M (option (list Z)) :=
  let* dst := lift (clear dst max) in
  dec_str (get_index c set size) dst (Z.to_nat n) 0.
(** Acn_Dec_String_CharIndex_FixSize, asn1crt_encoding_acn.c:1389-1392 *)
Definition Acn_Dec_String_CharIndex_FixSize (c : cfg) (max : Z) (set : list Z) (size : Z) (dst : list Z)
  : M (option (list Z)) :=
  Acn_Dec_String_CharIndex_private c max max set size dst.
(** Acn_Dec_String_CharIndex_External_Field_Determinant, asn1crt_encoding_acn.c:1394-1397 *)
Definition Acn_Dec_String_CharIndex_External_Field_Determinant (c : cfg) (max : Z) (set : list Z)
  (size ext : Z) (dst : list Z) : M (option (list Z)) :=
  Acn_Dec_String_CharIndex_private c max (if ext <=? max then ext else max) set size dst.
(** Acn_Dec_String_CharIndex_Internal_Field_Determinant, asn1crt_encoding_acn.c:1399-1405 *)
Definition Acn_Dec_String_CharIndex_Internal_Field_Determinant (c : cfg) (max : Z) (set : list Z)
  (size min : Z) (dst : list Z) : M (option (list Z)) :=
  let? n := BitStream_DecodeConstraintWholeNumber c min max in
  Acn_Dec_String_CharIndex_private c max (if n <=? max then n else max) set size dst.
(** Acn_Dec_IA5String_CharIndex_External_Field_Determinant, asn1crt_encoding_acn.c:1410-1426 *)
Definition Acn_Dec_IA5String_CharIndex_External_Field_Determinant (c : cfg) (max ext : Z) (dst : list Z)
  : M (option (list Z)) :=
  Acn_Dec_String_CharIndex_private c max (if ext <=? max then ext else max) ia5_set 128 dst.
(** Acn_Dec_IA5String_CharIndex_Internal_Field_Determinant, asn1crt_encoding_acn.c:1428-1447 *)
Definition Acn_Dec_IA5String_CharIndex_Internal_Field_Determinant (c : cfg) (max min : Z) (dst : list Z)
  : M (option (list Z)) :=
  let? n := BitStream_DecodeConstraintWholeNumber c min max in
  Acn_Dec_String_CharIndex_private c max (if n <=? max then n else max) ia5_set 128 dst.

(** ** IA5String determinants *)
Fixpoint zero_bits (c : cfg) (k : nat) : M unit :=
  match k with
  | O => ret tt
  | S k' => BitStream_AppendBit c false ;;; zero_bits c k'
  end.
(** Acn_InitDet_IA5String_FixSize, asn1crt_encoding_acn.c:2062-2070 *)
Definition Acn_InitDet_IA5String_FixSize (c : cfg) (nChars : Z) (d0 : det) : M det :=
  let* p := Acn_BitStream_GetPos in
  zero_bits c (Z.to_nat (nChars * 7)) ;;;
  ret (mkdet p false 0 (0 :: tl (det_str d0))).

(** for (b = 6; b >= 0; b--), asn1crt_encoding_acn.c:2081-2082 *)
Fixpoint char_bits (c : cfg) (ch : Z) (k : nat) : M unit :=
  match k with
  | O => ret tt
  | S k' =>
      BitStream_AppendBit c (negb (Z.land (Z.shiftr ch (Z.of_nat k')) 1 =? 0)) ;;;
      char_bits c ch k'
  end.
(** for (i = 0; i < nChars; i++), asn1crt_encoding_acn.c:2079-2083 *)
Fixpoint chars_loop (c : cfg) (str : list Z) (slen i : Z) (k : nat) : M unit :=
  match k with
  | O => ret tt
  | S k' =>
      let* ch := lift (if i <? slen then nthZ str i else Ok 0x20) in
      char_bits c ch 7 ;;; chars_loop c str slen (i + 1) k'
  end.
(** strncpy(dst, src, n): the n bytes written. UB when neither a zero nor n
    bytes are found. *)
Fixpoint strncpy (src : list Z) (n : nat) : outcome (list Z) :=
  match n with
  | O => Ok []
  | S m =>
      match src with
      | [] => UB
      | b :: t => if b =? 0 then Ok (repeat 0 n)
                  else obind (strncpy t m) (fun l => Ok (b :: l))
      end
  end.
(** strncmp(a, b, n) == 0 *)
Fixpoint strncmp0 (a b : list Z) (n : nat) : outcome bool :=
  match n with
  | O => Ok true
  | S m =>
      match a, b with
      | x :: a', y :: b' =>
          if x =? y then if x =? 0 then Ok true else strncmp0 a' b' m else Ok false
      | _, _ => UB
      end
  end.
(** Acn_PatchDet_IA5String_FixSize, asn1crt_encoding_acn.c:2073-2096; (size_t)nChars
    is nChars for nChars >= 0. *)
Definition Acn_PatchDet_IA5String_FixSize (c : cfg) (str : list Z) (nChars : Z) (d : det) : M (bool * det) :=
  if negb (det_set d) then
    let* l := lift (strlen str) in
    let* cur := Acn_BitStream_GetPos in
    Acn_BitStream_SetPos (det_pos d) ;;;
    chars_loop c str (s32 l) 0 (Z.to_nat nChars) ;;;
    Acn_BitStream_SetPos cur ;;;
    let* m := lift (strncpy str 255) in
    ret (true, mkdet (det_pos d) true (det_value d) (m ++ [0]))
  else
    let* e := lift (strncmp0 (det_str d) str (Z.to_nat nChars)) in
    ret (e, d).
