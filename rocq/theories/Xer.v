(** XER runtime, asn1crt/asn1crt_encoding_xer.c (WORD_SIZE = 8). Characters are
    modelled by their byte values, a C string by the bytes before its NUL; an
    elementTag that is NULL is modelled like the empty one (only the functions
    that test for NULL are given it). pErrCode is not modelled. Positions and
    lengths are computed without overflow (all are below 2^31). Not modelled:
    the text of reals (Double2String is modelled up to its snprintf,
    Xer_DecodeReal's atof is not) and the opening of the file in LoadXmlFile. *)
From Verif Require Import Base ByteStream RealSpec.
From Coq Require Import Floats.SpecFloat.

(** What ISO C leaves open and a C library may define: [any_char]: isalpha,
    isdigit and isspace accept any char (ISO: UB for negative ones other than
    EOF); [ato_sat]: atoll saturates (ISO 7.20.1: UB when out of range). *)
Record libc : Type := mklibc { any_char : bool; ato_sat : bool }.
Definition iso_libc : libc := mklibc false false.
Definition glibc : libc := mklibc true true.

(** ctype.h in the C locale; the argument is an unsigned char. *)
Definition isspace (b : Z) : bool := (b =? 32) || ((9 <=? b) && (b <=? 13)).
Definition isdigit (b : Z) : bool := (48 <=? b) && (b <=? 57).
Definition isalpha (b : Z) : bool := ((65 <=? b) && (b <=? 90)) || ((97 <=? b) && (b <=? 122)).
(** ... and when the argument is a (signed) char, given by its byte. *)
Definition char_ok (L : libc) (b : Z) : bool := any_char L || (b <? 128) || (b =? 255).
Definition isspace_c (L : libc) (b : Z) : outcome bool :=
  if char_ok L b then Ok (isspace b) else UB.

(** snprintf %llu and %lld: the digits of v, most significant first. [v] has at
    most 20 digits. *)
Fixpoint digits (fuel : nat) (v : Z) (acc : list Z) : list Z :=
  match fuel with
  | O => acc
  | S f => if v <? 10 then (48 + v) :: acc else digits f (v / 10) ((48 + v mod 10) :: acc)
  end.
(** UInt2String, :18-22 *)
Definition UInt2String (v : Z) : list Z := digits 20 v [].
(** Int2String, :12-16 *)
Definition Int2String (v : Z) : list Z :=
  if v <? 0 then 45 :: UInt2String (- v) else UInt2String v.

(** Double2String, :24-48, up to the call of snprintf: [DZero] the text "0", otherwise
    the mantissa printed and the exponent. fuel: iterations of the loops. The double
    operations round to nearest. *)
Inductive dtext := DZero | DText (v : spec_float) (e : Z).
Definition D10 : spec_float := S754_finite false 5629499534213120 (-49).
Definition D1 : spec_float := S754_finite false 4503599627370496 (-52).
(* 1e-17 *)
Definition Dtiny : spec_float := S754_finite false 6490371073168535 (-109).
Definition dlt (x y : spec_float) : bool := SFltb (SFabs x) y.
Fixpoint scale_down (fuel : nat) (v : spec_float) (e : Z) : outcome (spec_float * Z) :=
  match fuel with
  | O => Diverge
  | S f =>
      if SFleb D10 (SFabs v) then
        if e =? 2 ^ 31 - 1 then UB else scale_down f (SFdiv 53 1024 v D10) (e + 1)
      else Ok (v, e)
  end.
Fixpoint scale_up (fuel : nat) (v : spec_float) (e : Z) : outcome (spec_float * Z) :=
  match fuel with
  | O => Diverge
  | S f => if dlt v D1 then scale_up f (SFmul 53 1024 v D10) (e - 1) else Ok (v, e)
  end.
Definition Double2String (fuel : nat) (v : spec_float) : outcome dtext :=
  if dlt v Dtiny then Ok DZero
  else
    obind (scale_down fuel v 0) (fun '(v, e) =>
    obind (scale_up fuel v e) (fun '(v, e) => Ok (DText v e))).

(** GetNextChar, :50-56 *)
Definition GetNextChar : B (option Z) :=
  do* s := bget in
  if cur s >=? size s then bret None
  else
    do* c := brd (cur s) in
    do* _ := bseek (cur s + 1) in
    bret (Some c).
(** PushBackChar, :58-62 *)
Definition PushBackChar : B unit :=
  do* s := bget in
  do* _ := bseek (cur s - 1) in
  if cur s - 1 >=? 0 then bret tt else blift Abort.

(** The loop of ByteStream_PutSpace, :77-80 *)
Fixpoint put_spaces (n : nat) : B (option unit) :=
  match n with
  | O => bret (Some tt)
  | S k =>
      do* s := bget in
      do* _ := bwr (cur s) 32 in
      do* _ := bseek (cur s + 1) in
      put_spaces k
  end.
(** ByteStream_PutSpace, :64-82 *)
Definition ByteStream_PutSpace (level : Z) : B (option unit) :=
  do* s := bget in
  if negb (ws s) then bret (Some tt)
  else if level <? 0 then bret (Some tt)
  else if cur s + 2 * level >=? size s then bret None
  else put_spaces (Z.to_nat (2 * level)).
(** ByteStream_PutNL, :84-95 *)
Definition ByteStream_PutNL : B (option unit) :=
  do* s := bget in
  if negb (ws s) then bret (Some tt)
  else if cur s >=? size s then bret None
  else
    do* _ := bwr (cur s) 10 in
    do* _ := bseek (cur s + 1) in
    bret (Some tt).

(** Position of the first NUL of [l]. *)
Fixpoint find0 (l : list Z) : option nat :=
  match l with
  | [] => None
  | b :: t => if b =? 0 then Some O else option_map S (find0 t)
  end.
(** strcpy to position [i] of the memory. *)
Definition strcpy_at (i : nat) (v : list Z) : B unit :=
  fun s =>
    if (i + length v <? length (mem s))%nat
    then Ok (tt, mkby (firstn i (mem s) ++ v ++ [0] ++ skipn (i + length v + 1) (mem s)) (size s) (cur s) (ws s))
    else UB.
(** strcat(&buf[i], v): v goes where the string that is at i ends. *)
Definition strcat_at (i : Z) (v : list Z) : B unit :=
  fun s =>
    if i <? 0 then UB
    else match find0 (skipn (Z.to_nat i) (mem s)) with
         | None => UB
         | Some k => strcpy_at (Z.to_nat i + k) v s
         end.
(** ByteStream_AppendString, :97-106 *)
Definition ByteStream_AppendString (v : list Z) : B (option unit) :=
  do* s := bget in
  let len := Z.of_nat (length v) in
  if cur s + len >=? size s then bret None
  else
    do* _ := strcat_at (cur s) v in
    do* _ := bseek (cur s + len) in
    bret (Some tt).

Definition WORD_ID : Z := 1000.

(** isPartOfID, :112-127 *)
Definition isPartOfID (L : libc) (c : Z) : outcome bool :=
  if char_ok L c then Ok (isalpha c || isdigit c || (c =? 46) || (c =? 43) || (c =? 45) || (c =? 95)) else UB.

(** while (currentByte < count && go(currentByte)) currentByte++. The fuel is the
    number of bytes left. *)
Fixpoint skip_loop (fuel : nat) (go : Z -> B bool) : B unit :=
  match fuel with
  | O => blift Diverge
  | S f =>
      do* s := bget in
      if cur s >=? size s then bret tt
      else
        do* c := go (cur s) in
        if c then
          do* _ := bseek (cur s + 1) in
          skip_loop f go
        else bret tt
  end.
Definition skip_while (go : Z -> B bool) : B unit :=
  do* s := bget in
  skip_loop (S (Z.to_nat (size s - cur s))) go.
Definition skip_space : B unit :=
  skip_while (fun i => do* b := brd i in bret (isspace b)).
Definition brd_is (i v : Z) : B bool := do* b := brd i in bret (b =? v).

(** Token, asn1crt.h:173-176: TokenID and Value; a word is read by the loop of
    NT, :182-190; [n]: characters that still fit. *)
Definition token : Type := Z * list Z.
Fixpoint read_word (L : libc) (n : nat) : B (list Z) :=
  do* s := bget in
  if cur s >=? size s then bret []
  else
    do* c := brd (cur s) in
    do* p := blift (isPartOfID L c) in
    match n with
    | O => bret []
    | S k =>
        if p then
          do* _ := bseek (cur s + 1) in
          do* w := read_word L k in
          bret (c :: w)
        else bret []
    end.
(** NT, :129-194 *)
Definition is_special (b : Z) : bool :=
  (b =? 60) || (b =? 62) || (b =? 47) || (b =? 61) || (b =? 34) || (b =? 0).
Definition skip_header : B unit :=
  do* s := bget in
  if negb (cur s + 1 <? size s) then bret tt
  else
    do* a := brd_is (cur s) 60 in
    if negb a then bret tt
    else
      do* b := brd_is (cur s + 1) 63 in
      if negb b then bret tt
      else
        do* _ := bseek (cur s + 1) in
        do* _ := skip_while (fun i =>
          do* a := brd_is (i - 1) 63 in
          if a then do* b := brd_is i 62 in bret (negb b) else bret true) in
        do* s := bget in
        do* _ := bseek (cur s + 1) in
        skip_space.
Definition skip_comment : B unit :=
  do* s := bget in
  if negb (cur s + 3 <? size s) then bret tt
  else
    do* a := brd_is (cur s) 60 in
    if negb a then bret tt else
    do* b := brd_is (cur s + 1) 33 in
    if negb b then bret tt else
    do* c := brd_is (cur s + 2) 45 in
    if negb c then bret tt else
    do* d := brd_is (cur s + 3) 45 in
    if negb d then bret tt else
    do* _ := bseek (cur s + 2) in
    do* _ := skip_while (fun i =>
      do* a := brd_is (i - 2) 45 in
      if negb a then bret true else
      do* b := brd_is (i - 1) 45 in
      if negb b then bret true else
      do* c := brd_is i 62 in bret (negb c)) in
    do* s := bget in
    do* _ := bseek (cur s + 1) in
    skip_space.
Definition NT (L : libc) : B token :=
  do* _ := skip_space in
  do* s := bget in
  if cur s >=? size s then bret (0, []) else
  do* _ := skip_header in
  do* s := bget in
  if cur s >=? size s then bret (0, []) else
  do* _ := skip_comment in
  do* s := bget in
  if cur s >=? size s then bret (0, []) else
  do* b := brd (cur s) in
  if is_special b then
    do* _ := bseek (cur s + 1) in
    bret (b, if b =? 0 then [] else [b])
  else
    do* w := read_word L 99 in
    bret (match w with [] => 0 | _ => WORD_ID end, w).
(** LA, :196-206 *)
Definition LA (L : libc) : B token :=
  do* s := bget in
  do* t := NT L in
  do* _ := bseek (cur s) in
  bret t.

Definition list_eqb (a b : list Z) : bool := if list_eq_dec Z.eq_dec a b then true else false.
(** (t.TokenID == WORD_ID) && strcmp(t.Value, v) == 0 *)
Definition is_word (t : token) (v : list Z) : bool := (fst t =? WORD_ID) && list_eqb (snd t) v.
(** if (NT(pByteStrm).TokenID != id) return FALSE *)
Definition expect (L : libc) (id : Z) : B (option unit) :=
  do* t := NT L in
  bret (if fst t =? id then Some tt else None).
Definition expect_word (L : libc) (v : list Z) : B (option unit) :=
  do* t := NT L in
  bret (if is_word t v then Some tt else None).

(** XmlAttributeArray, asn1crt.h:178-186: names and values; None is NULL.
    AddAttribute, :211-218: Name has 50 bytes, Value 100, the array 20 elements. *)
Definition attributes : Type := list (list Z * list Z).
Definition AddAttribute (a : option attributes) (name val : list Z) : outcome (option attributes) :=
  match a with
  | None => UB
  | Some l =>
      if 20 <=? Z.of_nat (length l) then Abort
      else if (50 <=? Z.of_nat (length name)) || (100 <=? Z.of_nat (length val)) then UB
      else Ok (Some (l ++ [(name, val)]))
  end.

(** Xer_EncodePrimitiveElement, :224-265 *)
Definition nl_if (level : Z) : B (option unit) :=
  if level >=? 0 then ByteStream_PutNL else bret (Some tt).
Definition Xer_EncodePrimitiveElement (tag value : list Z) (level : Z) : B (option unit) :=
  do? _ := ByteStream_PutSpace level in
  do? _ := ByteStream_AppendString [60] in
  do? _ := ByteStream_AppendString tag in
  match value with
  | [] =>
      do? _ := ByteStream_AppendString [47] in
      do? _ := ByteStream_AppendString [62] in
      nl_if level
  | _ =>
      do? _ := ByteStream_AppendString [62] in
      do? _ := ByteStream_AppendString value in
      do? _ := ByteStream_AppendString [60] in
      do? _ := ByteStream_AppendString [47] in
      do? _ := ByteStream_AppendString tag in
      do? _ := ByteStream_AppendString [62] in
      nl_if level
  end.

(** The loop of Xer_DecodePrimitiveElement, :307-326; [room]: maxLen - 1 - written. *)
Fixpoint read_text (fuel : nat) (room : Z) : B (option (list Z)) :=
  match fuel with
  | O => blift Diverge
  | S f =>
      do? c := GetNextChar in
      if c =? 60 then bret (Some [])
      else if room <=? 0 then bret None
      else
        do? t := read_text f (room - 1) in
        bret (Some (c :: t))
  end.
(** Xer_DecodePrimitiveElement, :269-352; pDecodedValue has maxLen bytes. The
    result is what it receives before the terminating NUL. *)
Definition Xer_DecodePrimitiveElement (L : libc) (tag : list Z) (maxLen : Z) : B (option (list Z)) :=
  if maxLen <? 1 then blift UB else
  do? _ := expect L 60 in
  do? _ := expect_word L tag in
  do* t := NT L in
  if fst t =? 47 then
    do? _ := expect L 62 in
    bret (Some [])
  else if negb (fst t =? 62) then bret None
  else
    do* s := bget in
    do? v := read_text (S (Z.to_nat (size s - cur s))) (maxLen - 1) in
    do* _ := PushBackChar in
    do? _ := expect L 60 in
    do? _ := expect L 47 in
    do? _ := expect_word L tag in
    do? _ := expect L 62 in
    bret (Some v).

(** Xer_DecodeAttributes, :361-395. Every iteration consumes a byte. *)
Fixpoint attributes_loop (L : libc) (fuel : nat) (a : option attributes) : B (option (option attributes)) :=
  match fuel with
  | O => blift Diverge
  | S f =>
      do* t := LA L in
      if fst t =? 62 then bret (Some a)
      else
        do* t1 := NT L in
        if negb (fst t1 =? WORD_ID) then bret None else
        do? _ := expect L 61 in
        do? _ := expect L 34 in
        do* t2 := NT L in
        if negb (fst t2 =? WORD_ID) then bret None else
        do? _ := expect L 34 in
        do* a := blift (AddAttribute a (snd t1) (snd t2)) in
        attributes_loop L f a
  end.
Definition Xer_DecodeAttributes (L : libc) (a : option attributes) : B (option (option attributes)) :=
  do* s := bget in
  attributes_loop L (S (Z.to_nat (size s - cur s))) a.

(** Xer_EncodeComplexElementStart, :398-435 *)
Fixpoint put_attributes (a : attributes) : B (option unit) :=
  match a with
  | [] => bret (Some tt)
  | (n, v) :: t =>
      do? _ := ByteStream_AppendString n in
      do? _ := ByteStream_AppendString [61] in
      do? _ := ByteStream_AppendString [34] in
      do? _ := ByteStream_AppendString v in
      do? _ := ByteStream_AppendString [34] in
      put_attributes t
  end.
Definition Xer_EncodeComplexElementStart (tag : list Z) (a : attributes) (level : Z) : B (option unit) :=
  match tag with
  | [] => bret (Some tt)
  | _ =>
      do? _ := ByteStream_PutSpace level in
      do? _ := ByteStream_AppendString [60] in
      do? _ := ByteStream_AppendString tag in
      do? _ := put_attributes a in
      do? _ := ByteStream_AppendString [62] in
      nl_if level
  end.
(** Xer_DecodeComplexElementStart, :437-478 *)
Definition Xer_DecodeComplexElementStart (L : libc) (tag : list Z) (a : option attributes)
  : B (option (option attributes)) :=
  match tag with
  | [] => bret (Some a)
  | _ =>
      do? _ := expect L 60 in
      do? _ := expect_word L tag in
      do? a := Xer_DecodeAttributes L a in
      do* t := NT L in
      if fst t =? 47 then
        do? _ := expect L 62 in
        bret (Some a)
      else bret (if fst t =? 62 then Some a else None)
  end.
(** Xer_EncodeComplexElementEnd, :480-503 *)
Definition Xer_EncodeComplexElementEnd (tag : list Z) (level : Z) : B (option unit) :=
  match tag with
  | [] => bret (Some tt)
  | _ =>
      do? _ := ByteStream_PutSpace level in
      do? _ := ByteStream_AppendString [60] in
      do? _ := ByteStream_AppendString [47] in
      do? _ := ByteStream_AppendString tag in
      do? _ := ByteStream_AppendString [62] in
      nl_if level
  end.
(** Xer_DecodeComplexElementEnd, :505-534 *)
Definition Xer_DecodeComplexElementEnd (L : libc) (tag : list Z) : B (option unit) :=
  match tag with
  | [] => bret (Some tt)
  | _ =>
      do? _ := expect L 60 in
      do? _ := expect L 47 in
      do? _ := expect_word L tag in
      expect L 62
  end.

Definition t_true : list Z := [116; 114; 117; 101].
Definition t_false : list Z := [102; 97; 108; 115; 101].

(** Xer_EncodeNull, :539-543 *)
Definition Xer_EncodeNull (tag : list Z) (level : Z) : B (option unit) :=
  Xer_EncodePrimitiveElement tag [] level.
(** Xer_EncodeInteger, :545-548 *)
Definition Xer_EncodeInteger (tag : list Z) (v level : Z) : B (option unit) :=
  Xer_EncodePrimitiveElement tag (Int2String v) level.
(** Xer_EncodePosInteger, :550-553 *)
Definition Xer_EncodePosInteger (tag : list Z) (v level : Z) : B (option unit) :=
  Xer_EncodePrimitiveElement tag (UInt2String v) level.
(** Xer_EncodeBoolean, :555-568 *)
Definition Xer_EncodeBoolean (tag : list Z) (v : bool) (level : Z) : B (option unit) :=
  let name := if v then t_true else t_false in
  match tag with
  | [] => Xer_EncodePrimitiveElement name [] level
  | _ => Xer_EncodePrimitiveElement tag ([60] ++ name ++ [47; 62]) level
  end.
(** Xer_EncodeEnumerated, :570-598; tmp has 256 bytes. *)
Definition Xer_EncodeEnumerated (tag value : list Z) (level : Z) : B (option unit) :=
  if 256 <=? Z.of_nat (length value) + 3 then blift UB else
  match tag with
  | [] => Xer_EncodePrimitiveElement value [] level
  | _ =>
      do? _ := ByteStream_PutSpace level in
      do? _ := Xer_EncodeComplexElementStart tag [] (-1) in
      do? _ := Xer_EncodePrimitiveElement value [] (-1) in
      do? _ := Xer_EncodeComplexElementEnd tag (-1) in
      ByteStream_PutNL
  end.
(** Xer_EncodeString, :605-608 *)
Definition Xer_EncodeString (tag value : list Z) (level : Z) : B (option unit) :=
  Xer_EncodePrimitiveElement tag value level.

(** The frame shared by the three functions below: the loop runs between start
    and end tag. *)
Definition put_framed (tag : list Z) (level : Z) (body : B (option unit)) : B (option unit) :=
  do? _ := ByteStream_PutSpace level in
  do? _ := Xer_EncodeComplexElementStart tag [] (-1) in
  do? _ := body in
  do? _ := Xer_EncodeComplexElementEnd tag (-1) in
  ByteStream_PutNL.
(** for (i = i0; i < n; i++) append(item(i)), returning FALSE when it fails;
    [k] is n - i. *)
Fixpoint append_all (k : nat) (i : Z) (item : Z -> outcome (list Z)) : B (option unit) :=
  match k with
  | O => bret (Some tt)
  | S k =>
      do* t := blift (item i) in
      do? _ := ByteStream_AppendString t in
      append_all k (i + 1) item
  end.
(** %02X *)
Definition hexdigit (n : Z) : Z := if n <? 10 then 48 + n else 55 + n.
(** Xer_EncodeOctetString, :610-635 *)
Definition Xer_EncodeOctetString (tag value : list Z) (n level : Z) : B (option unit) :=
  put_framed tag level
    (append_all (Z.to_nat n) 0
       (fun i => obind (nthZ value i) (fun b => Ok [hexdigit (b / 16); hexdigit (b mod 16)]))).
(** Xer_EncodeBitString, :637-673 *)
Definition Xer_EncodeBitString (tag value : list Z) (n level : Z) : B (option unit) :=
  put_framed tag level
    (append_all (Z.to_nat n) 0
       (fun i => obind (nthZ value (i / 8)) (fun b => Ok [if Z.testbit b (7 - i mod 8) then 49 else 48]))).
(** Xer_EncodeObjectIdentifier, :676-707 *)
Definition Xer_EncodeObjectIdentifier (tag values : list Z) (n level : Z) : B (option unit) :=
  put_framed tag level
    (do? _ := append_all (if 0 <? n then 1%nat else O) 0 (fun i => obind (nthZ values i) (fun v => Ok (UInt2String v))) in
     append_all (Z.to_nat (n - 1)) 1 (fun i => obind (nthZ values i) (fun v => Ok (46 :: UInt2String v)))).

(** The C string in a zeroed buffer that received [l]. *)
Fixpoint cstr (l : list Z) : list Z :=
  match l with
  | [] => []
  | b :: t => if b =? 0 then [] else b :: cstr t
  end.
(** strtoll/strtoull, base 10: white space, sign, digits; negative, magnitude.
    isspace's argument is a char (of the C string). *)
Fixpoint digits_value (l : list Z) (acc : Z) : Z :=
  match l with
  | [] => acc
  | c :: t => if isdigit c then digits_value t (10 * acc + (c - 48)) else acc
  end.
Fixpoint skip_blanks (l : list Z) : list Z :=
  match l with
  | [] => []
  | c :: t => if isspace c then skip_blanks t else l
  end.
Definition number (l : list Z) : bool * Z :=
  match skip_blanks l with
  | c :: t =>
      if c =? 45 then (true, digits_value t 0)
      else if c =? 43 then (false, digits_value t 0)
      else (false, digits_value (c :: t) 0)
  | [] => (false, 0)
  end.
Definition atoll (L : libc) (l : list Z) : outcome Z :=
  let '(neg, m) := number l in
  let v := if neg then - m else m in
  if in_s64 v then Ok v
  else if ato_sat L then Ok (if neg then - two63 else two63 - 1) else UB.
Definition strtoull (l : list Z) : Z :=
  let '(neg, m) := number l in
  if two64 <=? m then two64 - 1 else u64 (if neg then - m else m).

(** Xer_LA_NextElementTag, :1027-1066; elementTag has room for Value. *)
Definition Xer_LA_NextElementTag (L : libc) : B (option (list Z)) :=
  do* s := bget in
  do* r :=
    do? _ := expect L 60 in
    do* t := NT L in
    if negb (fst t =? WORD_ID) then bret None else
    do* u := NT L in
    if fst u =? 47 then
      do? _ := expect L 62 in
      bret (Some (snd t))
    else bret (if fst u =? 62 then Some (snd t) else None) in
  do* _ := bseek (cur s) in
  bret r.
(** Xer_NextEndElementIs, :953-983 *)
Definition flag_of {A} (m : B (option A)) : B bool :=
  do* s := bget in
  do* r := m in
  do* _ := bseek (cur s) in
  bret (match r with Some _ => true | None => false end).
Definition Xer_NextEndElementIs (L : libc) (tag : list Z) : B bool :=
  flag_of
    (do? _ := expect L 60 in
     do? _ := expect L 47 in
     do? _ := expect_word L tag in
     expect L 62).
(** Xer_NextStartElementIs, :986-1024 *)
Definition Xer_NextStartElementIs (L : libc) (tag : list Z) : B bool :=
  flag_of
    (do? _ := expect L 60 in
     do? _ := expect_word L tag in
     do* t := NT L in
     if fst t =? 47 then expect L 62
     else bret (if fst t =? 62 then Some tt else None)).

(** Xer_DecodeNull, :718-726 *)
Definition Xer_DecodeNull (L : libc) (tag : list Z) : B (option unit) :=
  do? _ := Xer_DecodePrimitiveElement L tag 256 in
  bret (Some tt).
(** Xer_DecodeInteger, :732-740 *)
Definition Xer_DecodeInteger (L : libc) (tag : list Z) : B (option Z) :=
  do? t := Xer_DecodePrimitiveElement L tag 256 in
  do* v := blift (atoll L (cstr t)) in
  bret (Some v).
(** Xer_DecodePosInteger, :742-750 *)
Definition Xer_DecodePosInteger (L : libc) (tag : list Z) : B (option Z) :=
  do? t := Xer_DecodePrimitiveElement L tag 256 in
  bret (Some (strtoull (cstr t))).
(** Xer_DecodeBoolean, :752-782; with an empty tag the two calls on the outer
    element do nothing, like the tests of hasExtTag. *)
Definition Xer_DecodeBoolean (L : libc) (tag : list Z) : B (option bool) :=
  do? _ := Xer_DecodeComplexElementStart L tag None in
  do? t := Xer_LA_NextElementTag L in
  let v := list_eqb t t_true in
  do? _ := Xer_DecodePrimitiveElement L (if v then t_true else t_false) 256 in
  do? _ := Xer_DecodeComplexElementEnd L tag in
  bret (Some v).
(** Xer_DecodeEnumerated, :784-805; the result is the name. *)
Definition Xer_DecodeEnumerated (L : libc) (tag : list Z) : B (option (list Z)) :=
  do? _ := Xer_DecodeComplexElementStart L tag None in
  do? t := Xer_LA_NextElementTag L in
  do? _ := Xer_DecodePrimitiveElement L t 256 in
  do? _ := Xer_DecodeComplexElementEnd L tag in
  bret (Some t).
(** Xer_DecodeString, :818-821 *)
Definition Xer_DecodeString (L : libc) (tag : list Z) (valSize : Z) : B (option (list Z)) :=
  Xer_DecodePrimitiveElement L tag valSize.

(** CharToNibble, :824-839 *)
Definition CharToNibble (c : Z) : option Z :=
  if (48 <=? c) && (c <=? 57) then Some (c - 48)
  else if (65 <=? c) && (c <=? 70) then Some (c - 65 + 10)
  else if (97 <=? c) && (c <=? 102) then Some (c - 97 + 10)
  else None.
(** The white-space removal common to the three functions below: the
    characters kept, :853-859. *)
Fixpoint unspaced (L : libc) (l : list Z) : outcome (list Z) :=
  match l with
  | [] => Ok []
  | c :: t =>
      obind (isspace_c L c) (fun sp =>
      obind (unspaced L t) (fun r => Ok (if sp then r else c :: r)))
  end.
(** The loop of Xer_DecodeOctetString, :861-871; None: a character that is no digit. *)
Fixpoint octet_loop (l : list Z) (i max : Z) (value : list Z) : outcome (option (list Z)) :=
  match l with
  | [] => Ok (Some value)
  | c :: t =>
      if i / 2 <? max then
        match CharToNibble c with
        | None => Ok None
        | Some n =>
            if i mod 2 =? 0 then
              obind (updZ value (i / 2) (byte_of (Z.shiftl n 4))) (octet_loop t (i + 1) max)
            else
              obind (nthZ value (i / 2)) (fun b =>
              obind (updZ value (i / 2) (Z.lor b n)) (octet_loop t (i + 1) max))
        end
      else Ok (Some value)
  end.
(** Xer_DecodeOctetString, :841-876: the array and the count stored through nCount. *)
Definition Xer_DecodeOctetString (L : libc) (tag value : list Z) (max : Z) : B (option (list Z * Z)) :=
  do? t := Xer_DecodePrimitiveElement L tag 1024 in
  do* d := blift (unspaced L (cstr t)) in
  do? v := blift (octet_loop d 0 max value) in
  let len := Z.of_nat (length d) in
  bret (Some (v, len / 2 + len mod 2)).

(** The loop of Xer_DecodeBitString, :940-944 *)
Fixpoint bit_loop (l : list Z) (i max : Z) (value : list Z) : outcome (list Z) :=
  match l with
  | [] => Ok value
  | c :: t =>
      if i / 8 <? max then
        let v := byte_of (c - 48) in
        obind (nthZ value (i / 8)) (fun b =>
        obind (updZ value (i / 8) (Z.lor b (byte_of (Z.shiftl v (7 - i mod 8))))) (bit_loop t (i + 1) max))
      else Ok value
  end.
(** memset(value, 0, n) *)
Definition memset0 (value : list Z) (n : nat) : outcome (list Z) :=
  if (n <=? length value)%nat then Ok (repeat 0 n ++ skipn n value) else UB.
(** Xer_DecodeBitString, :911-950 *)
Definition Xer_DecodeBitString (L : libc) (tag value : list Z) (max : Z) : B (option (list Z * Z)) :=
  do? t := Xer_DecodePrimitiveElement L tag 2048 in
  do* d := blift (unspaced L (cstr t)) in
  let len := Z.of_nat (length d) in
  do* v := blift (memset0 value (Z.to_nat (len / 8 + (if len mod 8 =? 0 then 0 else 1)))) in
  do* v := blift (bit_loop d 0 max v) in
  bret (Some (v, len)).

(** strtok(tmp, "."): the number of tokens; [inside]: in a token. *)
Fixpoint tokens (l : list Z) (inside : bool) : nat :=
  match l with
  | [] => O
  | c :: t => if c =? 46 then tokens t false else if inside then tokens t true else S (tokens t true)
  end.
(** Xer_DecodeObjectIdentifier, :881-909: the new values (nCount is not
    written). tmp keeps its old tail behind the characters kept; strtok cuts tmp at a
    point, where atoll stops anyway. *)
Definition Xer_DecodeObjectIdentifier (L : libc) (tag values : list Z) : B (option (list Z)) :=
  do? t := Xer_DecodePrimitiveElement L tag 1024 in
  let t := cstr t in
  do* d := blift (unspaced L t) in
  let tmp := d ++ skipn (length d) t in
  let n := Nat.min (tokens tmp false) 20 in
  match n with
  | O => bret (Some values)
  | _ =>
      do* v := blift (atoll L tmp) in
      bret (Some (repeat (u64 v) n ++ skipn n values))
  end.

(** Xer_EncodeComment, :1070-1082 *)
Definition Xer_EncodeComment (c : list Z) : B (option unit) :=
  do? _ := ByteStream_AppendString [60; 33; 45; 45] in
  do? _ := ByteStream_AppendString c in
  ByteStream_AppendString [45; 45; 62].
(** Xer_EncodeXmlHeader, :1084-1093, with the header given. *)
Definition Xer_EncodeXmlHeader (h : list Z) : B unit :=
  do* _ := strcpy_at 0 h in
  do* _ := bwr (Z.of_nat (length h)) 10 in
  bseek (Z.of_nat (length h) + 1).

(** LoadXmlFile, :1110-1337, on the contents of the file. States of XmlState
    but XmlComment, which carries PreviousState. *)
Inductive xml_state := XmlStart | XmlHeader | XmlStartTag | XmlContent | XmlEndTag | XmlMixed
| XmlComment (previous : xml_state).
(** ByteStream_AppendChar, :1113-1121: [out] is in reverse. *)
Definition append_char (max : Z) (out : list Z) (c : Z) : option (list Z) :=
  if Z.of_nat (length out) >=? max then None else Some (c :: out).
Fixpoint append_chars (max : Z) (out l : list Z) : option (list Z) :=
  match l with
  | [] => Some out
  | c :: t => match append_char max out c with Some o => append_chars max o t | None => None end
  end.
(** One call of the state functions, :1126-1307: the new state, the two streams
    (in reverse) and whether the look-ahead character l1 is discarded. *)
Definition xml_step (max : Z) (st : xml_state) (c l1 : Z) (out tmp : list Z)
  : option (xml_state * list Z * list Z * bool) :=
  let put st tmp out := match append_char max out c with Some o => Some (st, o, tmp, false) | None => None end in
  match st with
  | XmlStart =>
      if negb (c =? 60) then Some (XmlStart, out, tmp, false)
      else if l1 =? 33 then Some (XmlComment XmlStart, out, tmp, false)
      else if l1 =? 63 then Some (XmlHeader, out, tmp, false)
      else put XmlStartTag tmp out
  | XmlHeader =>
      if (c =? 63) && (l1 =? 62) then Some (XmlStart, out, tmp, true) else Some (XmlHeader, out, tmp, false)
  | XmlStartTag => put (if c =? 62 then XmlContent else XmlStartTag) tmp out
  | XmlContent =>
      if negb (c =? 60) then
        match append_char 4096 tmp c with Some t => Some (XmlContent, out, t, false) | None => None end
      else if l1 =? 33 then Some (XmlComment XmlContent, out, tmp, false)
      else if l1 =? 47 then
        match append_chars max out (rev tmp) with Some o => put XmlEndTag [] o | None => None end
      else put XmlStartTag [] out
  | XmlEndTag => put (if c =? 62 then XmlMixed else XmlEndTag) tmp out
  | XmlMixed =>
      if negb (c =? 60) then Some (XmlMixed, out, tmp, false)
      else if l1 =? 33 then Some (XmlComment XmlMixed, out, tmp, false)
      else put (if l1 =? 47 then XmlEndTag else XmlStartTag) tmp out
  | XmlComment p =>
      if (c =? 45) && (l1 =? 62) then Some (p, out, tmp, true) else Some (XmlComment p, out, tmp, false)
  end.
(** The loop, :1326-1333; [skip]: the next character has been discarded. *)
Fixpoint load_loop (max : Z) (st : xml_state) (file : list Z) (skip : bool) (out tmp : list Z) : option (list Z) :=
  match file with
  | [] => Some (rev out)
  | c :: t =>
      if skip then load_loop max st t false out tmp
      else
        match xml_step max st c (hd (-1) t) out tmp with
        | None => None
        | Some (st, out, tmp, skip) => load_loop max st t skip out tmp
        end
  end.
(** The bytes loaded, at most [max]. *)
Definition LoadXmlFile (max : Z) (file : list Z) : option (list Z) := load_loop max XmlStart file false [] [].
