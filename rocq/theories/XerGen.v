(** XER codecs that asn1scc generates, BackendAst/DAstXer.fs with the templates of
    StgC/xer_c.stg, over the runtime of Xer.v. Modelled: INTEGER with the C types
    asn1SccSint/asn1SccUint, BOOLEAN, NULL, strings, ENUMERATED, OCTET STRING, BIT
    STRING, OBJECT IDENTIFIER, SEQUENCE OF, SEQUENCE, CHOICE and references. Not
    modelled: REAL and the TIME types, pErrCode, the call of IsConstraintValid
    by the encoder of a type assignment (bCheckConstraints; see C48). *)
From Verif Require Import Base Bits ByteStream UperTypes Xer.

(** Types. [XInt unsigned chk]: chk is the check statement of the decoder
    (soCheckExp, DAstXer.fs:130-139). [XStr numeric max size]: size is what sizeof(<p>)
    gives: max + 1 for a field, the size of a pointer in the function of a
    type assignment. [XEnum]: values and names of the items. [XSeqOf min max child t]:
    child is the tag given to the items (childTag, :319-331). [XRef name t]: call of
    the function of the type assignment name. *)
Inductive xty :=
| XInt (unsigned : bool) (chk : option (Z -> bool))
| XBool
| XNull
| XStr (numeric : bool) (max size : Z)
| XEnum (items : list (Z * list Z))
| XOct (min max : Z)
| XBit (min max : Z)
| XOid
| XSeqOf (min max : Z) (child : option (list Z)) (t : xty)
| XSeq (fs : xfields)
| XCho (cs : xalts)
| XRef (name : list Z) (t : xty)
with xfields := XFNil | XFCons (name : list Z) (o : opt) (t : xty) (fs : xfields)
with xalts := XANil | XACons (name : list Z) (t : xty) (cs : xalts).

Scheme xty_ind' := Induction for xty Sort Prop
with xfields_ind' := Induction for xfields Sort Prop
with xalts_ind' := Induction for xalts Sort Prop.
Combined Scheme xty_mutind from xty_ind', xfields_ind', xalts_ind'.

(** XerTag option: [None]: no tag given, [Some []]: the literal "" or NULL (the
    functions that receive one treat them alike). orElse, :119 *)
Definition or_else (d : list Z) (tag : option (list Z)) : list Z :=
  match tag with Some t => t | None => d end.
Definition n_INTEGER : list Z := [73; 78; 84; 69; 71; 69; 82].
Definition n_NULL : list Z := [78; 85; 76; 76].
Definition n_IA5String : list Z := [73; 65; 53; 83; 116; 114; 105; 110; 103].
Definition n_NumericString : list Z := [78; 117; 109; 101; 114; 105; 99; 83; 116; 114; 105; 110; 103].
Definition n_OCTET_STRING : list Z := [79; 67; 84; 69; 84; 45; 83; 84; 82; 73; 78; 71].
Definition n_BIT_STRING : list Z := [66; 73; 84; 45; 83; 84; 82; 73; 78; 71].
Definition n_ObjectIdentifier : list Z := [79; 98; 106; 101; 99; 116; 73; 100; 101; 110; 116; 105; 102; 105; 101; 114].
Definition n_SEQUENCE_OF : list Z := [83; 69; 81; 85; 69; 78; 67; 69; 45; 79; 70].
Definition n_SEQUENCE : list Z := [83; 69; 81; 85; 69; 78; 67; 69].
(** The names given by orElse in the functions createXXXFunction, :121-405; a CHOICE has
    none. *)
Definition default_tag (t : xty) : list Z :=
  match t with
  | XInt _ _ => n_INTEGER
  | XNull => n_NULL
  | XStr numeric _ _ => if numeric then n_NumericString else n_IA5String
  | XOct _ _ => n_OCTET_STRING
  | XBit _ _ => n_BIT_STRING
  | XOid => n_ObjectIdentifier
  | XSeqOf _ _ _ _ => n_SEQUENCE_OF
  | XSeq _ => n_SEQUENCE
  | XBool | XEnum _ | XCho _ | XRef _ _ => []
  end.
(** The tag passed by the call of a reference, createReferenceFunction, :440-448. *)
Definition ref_tag (name : list Z) (t : xty) (tag : option (list Z)) : option (list Z) :=
  match tag with
  | Some x => Some x
  | None => match t with XCho _ => Some [] | _ => Some name end
  end.

(** ** Encoders *)

(** switch over the value of an ENUMERATED, xer_c.stg:183-197 *)
Fixpoint enum_name (items : list (Z * list Z)) (z : Z) : option (list Z) :=
  match items with
  | [] => None
  | (v, n) :: r => if z =? v then Some n else enum_name r z
  end.
(** The number of items a string or SEQUENCE OF is coded with. *)
Definition count_of (min max len : Z) : Z := if min =? max then max else len.
(** for loop of SequenceOf_encode, xer_c.stg:256-259; [k]: n - i *)
Section Items.
Variable enc : value -> B (option unit).
Fixpoint put_items (k : nat) (l : list value) : B (option unit) :=
  match k, l with
  | O, _ => bret (Some tt)
  | S k, v :: l => do? _ := enc v in put_items k l
  | S _, [] => blift UB
  end.
End Items.

(** The functions funcBody with codec Encode. [lvl]: nLevel, the length of
    AcnAbsPath minus 2, that is 0 in the function of a type assignment. A [value]
    of another shape is not a value of the type: UB. *)
Fixpoint xenc (t : xty) (lvl : Z) (tag : option (list Z)) (v : value) {struct t} : B (option unit) :=
  let tg := or_else (default_tag t) tag in
  match t, v with
  | XInt unsigned _, VInt z => if unsigned then Xer_EncodePosInteger tg z lvl else Xer_EncodeInteger tg z lvl
  | XBool, VBool b => Xer_EncodeBoolean tg b lvl
  | XNull, VNull => Xer_EncodeNull tg lvl
  | XStr _ _ _, VStr l => Xer_EncodeString tg l lvl
  | XEnum items, VEnum z =>
      match enum_name items z with
      | Some n => Xer_EncodeEnumerated tg n lvl
      | None => bret None
      end
  | XOct min max, VOct l => Xer_EncodeOctetString tg l (count_of min max (Z.of_nat (length l))) lvl
  | XBit min max, VBit l => Xer_EncodeBitString tg (pack l) (count_of min max (Z.of_nat (length l))) lvl
  | XOid, VOid l => Xer_EncodeObjectIdentifier tg l (Z.of_nat (length l)) lvl
  | XSeqOf min max child t, VSeqOf l =>
      do? _ := Xer_EncodeComplexElementStart tg [] lvl in
      do? _ := put_items (xenc t (lvl + 1) child) (Z.to_nat (count_of min max (Z.of_nat (length l)))) l in
      Xer_EncodeComplexElementEnd tg lvl
  | XSeq fs, VSeq l =>
      do? _ := Xer_EncodeComplexElementStart tg [] lvl in
      do? _ := xenc_fields fs (lvl + 1) l in
      Xer_EncodeComplexElementEnd tg lvl
  | XCho cs, VChoice i v =>
      match tag with
      | None => xenc_alt cs (lvl + 1) i v
      | Some tg =>
          do? _ := Xer_EncodeComplexElementStart tg [] lvl in
          do? _ := xenc_alt cs (lvl + 1) i v in
          Xer_EncodeComplexElementEnd tg lvl
      end
  | XRef name t, _ => xenc t 0 (ref_tag name t tag) v
  | _, _ => blift UB
  end
(** handleChild of createSequenceFunction, :353-375, with the templates
    Sequence_*_child_encode, xer_c.stg:310-350 *)
with xenc_fields (fs : xfields) (lvl : Z) (l : list (bool * option value)) {struct fs} : B (option unit) :=
  match fs, l with
  | XFNil, [] => bret (Some tt)
  | XFCons name o t fs, (exists_, c) :: l =>
      let present := match o with Mandatory => true | _ => exists_ end in
      do? _ := (if present then match c with Some v => xenc t lvl (Some name) v | None => blift UB end
                else bret (Some tt)) in
      xenc_fields fs lvl l
  | _, _ => blift UB
  end
(** CHOICE_no_tag_encode, xer_c.stg:419-427; [i]: kind *)
with xenc_alt (cs : xalts) (lvl : Z) (i : nat) (v : value) {struct cs} : B (option unit) :=
  match cs, i with
  | XANil, _ => bret None
  | XACons name t _, O => xenc t lvl (Some name) v
  | XACons _ _ cs, S i => xenc_alt cs lvl i v
  end.

(** ** Decoders: the flag ret and what is in the variable; where the code leaves
    (part of) the variable as it was that is [VJunk], but for an INTEGER, whose old
    value the check statement can see: [old]. [fill]: old bytes of arrays. *)
Section Decode.
Variables (L : libc) (old fill : Z).

(** if/else over the label of an ENUMERATED, xer_c.stg:200-220: an unknown label sets
    *pErrCode only, which the last statement overwrites. *)
Fixpoint enum_value (items : list (Z * list Z)) (n : list Z) : option Z :=
  match items with
  | [] => None
  | (v, m) :: r => if list_eqb n m then Some v else enum_value r n
  end.
Definition as_value {A} (m : B (option A)) (f : A -> value) : B (bool * value) :=
  do* r := m in
  bret (match r with Some a => (true, f a) | None => (false, VJunk) end).
Definition leading_bits (n : Z) (arr : list Z) : list bool := firstn (Z.to_nat n) (bits_of_bytes arr).
(** while loop of SequenceOf_decode, xer_c.stg:275-286; the items in reverse. The
    fuel is nSizeMax + 1. *)
Section Items.
Variables (dec : B (bool * value)) (tg : list Z) (max : Z).
Fixpoint get_items (fuel : nat) (i : Z) (acc : list value) : B (bool * list value) :=
  match fuel with
  | O => blift Diverge
  | S f =>
      do* e := Xer_NextEndElementIs L tg in
      if e then bret (true, acc)
      else if i >=? max then bret (false, acc)
      else
        do* (ok, v) := dec in
        if ok then get_items f (i + 1) (v :: acc) else bret (false, v :: acc)
  end.
End Items.

Fixpoint xdec (t : xty) (tag : option (list Z)) {struct t} : B (bool * value) :=
  let tg := or_else (default_tag t) tag in
  match t with
  | XInt unsigned chk =>
      do* r := (if unsigned then Xer_DecodePosInteger L tg else Xer_DecodeInteger L tg) in
      let '(ret, z) := match r with Some z => (true, z) | None => (false, old) end in
      bret (match chk with Some c => c z | None => ret end, VInt z)
  | XBool => as_value (Xer_DecodeBoolean L tg) VBool
  | XNull => as_value (Xer_DecodeNull L tg) (fun _ => VNull)
  | XStr _ _ size => as_value (Xer_DecodeString L tg size) (fun l => VStr (cstr l))
  | XEnum items =>
      as_value (Xer_DecodeEnumerated L tg)
        (fun n => match enum_value items n with Some z => VEnum z | None => VJunk end)
  | XOct min max =>
      as_value (Xer_DecodeOctetString L tg (repeat fill (Z.to_nat max)) max)
        (fun '(arr, n) => if min =? max then VOct arr
                          else if n <=? max then VOct (firstn (Z.to_nat n) arr) else VJunk)
  | XBit min max =>
      as_value (Xer_DecodeBitString L tg (repeat fill (Z.to_nat ((max + 7) / 8))) max)
        (fun '(arr, n) => if min =? max then VBit (leading_bits max arr)
                          else if n <=? max then VBit (leading_bits n arr) else VJunk)
  | XOid => as_value (Xer_DecodeObjectIdentifier L tg (repeat fill 20)) (fun _ => VJunk)
  | XSeqOf min max child t =>
      do* s := Xer_DecodeComplexElementStart L tg None in
      match s with
      | None => bret (false, VJunk)
      | Some _ =>
          do* (ok, l) := get_items (xdec t child) tg max (S (Z.to_nat max)) 0 [] in
          let v := VSeqOf (rev l ++ (if min =? max then repeat VJunk (Z.to_nat max - length l) else [])) in
          if ok then as_value (Xer_DecodeComplexElementEnd L tg) (fun _ => v)
          else bret (false, VJunk)
      end
  | XSeq fs =>
      do* s := Xer_DecodeComplexElementStart L tg None in
      match s with
      | None => bret (false, VJunk)
      | Some _ =>
          do* r := xdec_fields fs in
          match r with
          | None => bret (false, VJunk)
          | Some l => as_value (Xer_DecodeComplexElementEnd L tg) (fun _ => VSeq l)
          end
      end
  | XCho cs =>
      let body :=
        do* n := Xer_LA_NextElementTag L in
        match n with
        | None => bret (false, VJunk)
        | Some n => xdec_alt cs n 0
        end in
      match tag with
      | None => body
      | Some tg =>
          do* s := Xer_DecodeComplexElementStart L tg None in
          match s with
          | None => bret (false, VJunk)
          | Some _ =>
              (* the result of the body is overwritten, xer_c.stg:466-468 *)
              do* (_, v) := body in
              do* e := Xer_DecodeComplexElementEnd L tg in
              bret (match e with Some _ => true | None => false end, v)
          end
      end
  | XRef name t => xdec t (ref_tag name t tag)
  end
(** The nested statements of a SEQUENCE, xer_c.stg:317-372; None: ret is FALSE. *)
with xdec_fields (fs : xfields) {struct fs} : B (option (list (bool * option value))) :=
  match fs with
  | XFNil => bret (Some [])
  | XFCons name o t fs =>
      do* p := Xer_NextStartElementIs L name in
      do? c :=
        (if p then
           do* (ok, v) := xdec t (Some name) in
           bret (if ok then Some (true, Some v) else None)
         else
           bret (match o with
                 | Mandatory => None
                 | Default d => Some (false, Some d)
                 | _ => Some (false, None)
                 end)) in
      do? l := xdec_fields fs in
      bret (Some (c :: l))
  end
(** CHOICE_child_decode, xer_c.stg:410-416; [i]: index of the first of cs *)
with xdec_alt (cs : xalts) (n : list Z) (i : nat) {struct cs} : B (bool * value) :=
  match cs with
  | XANil => bret (false, VJunk)
  | XACons name t cs =>
      if list_eqb n name then
        do* (ok, v) := xdec t (Some name) in
        bret (ok, VChoice i v)
      else xdec_alt cs n (S i)
  end.
End Decode.

(** ** Sizes, DAstXer.fs:42-66: <Type>_REQUIRED_BYTES_FOR_XER_ENCODING *)
Definition len_of (l : list Z) : Z := Z.of_nat (length l).
Definition xer_size (tag : list Z) (content : Z) : Z := 2 * (len_of tag + 2) + 1 + content + 1.
(** Seq.max of strings: ordinal comparison; [None]: no item *)
Fixpoint before (a b : list Z) : bool :=
  match a, b with
  | [], [] => false
  | [], _ :: _ => true
  | _ :: _, [] => false
  | x :: a, y :: b => if x =? y then before a b else x <? y
  end.
Fixpoint max_name (m : list Z) (ns : list (list Z)) : list Z :=
  match ns with
  | [] => m
  | n :: ns => max_name (if before m n then n else m) ns
  end.
Definition enum_size (items : list (Z * list Z)) : Z := 2 * (len_of (max_name [] (map snd items)) + 1) + 1.
Fixpoint xsize (t : xty) (tag : option (list Z)) {struct t} : Z :=
  let sz := xer_size (or_else (default_tag t) tag) in
  match t with
  | XInt _ _ => sz 20
  | XBool => sz 8
  | XNull => sz 0
  | XStr _ max _ => sz max
  | XEnum items => sz (enum_size items)
  | XOct _ max => sz (2 * max)
  | XBit _ max => sz (8 * max)
  | XOid => sz 50
  | XSeqOf _ max child t => sz (max * xsize t child)
  | XSeq fs => sz (xsize_fields fs)
  | XCho cs => match tag with None => xsize_alts cs | Some tg => xer_size tg (xsize_alts cs) end
  | XRef _ t => xsize t tag
  end
with xsize_fields (fs : xfields) {struct fs} : Z :=
  match fs with
  | XFNil => 0
  | XFCons name _ t fs => xsize t (Some name) + xsize_fields fs
  end
with xsize_alts (cs : xalts) {struct cs} : Z :=
  match cs with
  | XANil => 0
  | XACons name t cs => Z.max (xsize t (Some name)) (xsize_alts cs)
  end.
