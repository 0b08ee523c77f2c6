(** Model of the generated ACN encoders and decoders, C backend: the templates of
    StgC/acn_c.stg and the way BackendAst/Acn/*.fs assembles them. One model
    function per template group; the runtime functions are those of Acn.v,
    AcnStr.v, AcnReal.v, Octets.v, and the uPER bodies those of Uper.v.

    Not modelled: pErrCode; the counters nCount of a list left unset (the list is
    then [VJunk]); save-position, post-encoding and pre-decoding hooks; presence
    by an ACN expression; --acn-deferred (its runtime part is in Acn.v). *)
From Verif Require Import Base Bits BitStream Ints Octets Misc RealSpec UperTypes Uper Acn AcnStr AcnReal.

(** ** Types *)

(** IntEncodingClass, FrontEndAst/Asn1AcnAst.fs; one constructor per template
    group of acn_c.stg:147-330. [KUper a b]: the constrained whole number that
    createEnumCommon uses for an ENUMERATED without integer encoding
    (BackendAst/Acn/AcnEnum.fs:60-78). Sizes in bits ([KPos], [KTwos]), octets
    (BE, LE, text) or digits ([KBcd]). *)
Inductive icodec :=
| KUper (a b : Z)
| KPos (n : Z) | KPos8 | KPosBE (k : Z) | KPosLE (k : Z) | KPosVar
| KTwos (n : Z) | KTwos8 | KTwosBE (k : Z) | KTwosLE (k : Z) | KTwosVar
| KBcd (n : Z) | KBcdVar | KBcdNull
| KText (n : Z) | KTextVar | KTextNull (p : list Z)
| KUText (n : Z) | KUTextNull (p : list Z).

(** How the length of a string or list is found (SizeableAcnEncodingClass). *)
Inductive size_kind :=
| SzFixed
| SzEmbedded
| SzExt (d : Z) (lo hi : option Z)   (* determinant d; noSizeMin, noSizeMax *)
| SzNull (pat : list Z) (n : Z).     (* n bits of pat end the list *)

(** BOOLEAN: acn_c.stg:360-402. [BTrue], [BFalse]: only one pattern given, the
    other is its complement. *)
Inductive bool_kind := BTrue | BFalse | BBoth.

(** Character strings: StringAcnEncodingClass, AcnStrings.fs:27-56. *)
Inductive str_kind :=
| SAscii                              (* fixed or internal length field *)
| SNull (p : list Z)
| SAsciiExt (d : Z)
| SIndexExt (set : list Z) (d : Z)    (* alphabet of less than 128 characters *)
| SIA5Ext (d : Z).

Inductive presence_kind := PBit | PDet (d : Z).
(** Asn1Optionality, with acnPresentWhen *)
Inductive aopt :=
| OMandatory
| OAbsent
| OPresent
| OOptional (p : presence_kind) (def : option value).

(** How a CHOICE is told: index like uPER; value of an enumerated determinant for
    each alternative; conditions determinant = value for each alternative.
    Alternatives marked ALWAYS ABSENT are dropped by the generator and are not
    listed (AcnChoice.fs). *)
Inductive choice_kind :=
| CIndex
| CEnum (d : Z) (zs : list Z)
| CPres (conds : list (list (Z * value))).

(** [AUper t]: a type without ACN properties, whose uPER body is used. [w]: width of
    the C integer (suffix of the decoding function). [AEnumEff]: binary search in
    the table encoded_values_array, when isEnumEfficientEnabled. [ARef ok t]: call
    of the function of another type assignment; its parameters are the
    determinants used inside under their own names. *)
Inductive aty :=
| AUper (t : ty)
| ABool (k : bool_kind) (tp fp : list Z) (n : Z)
| ANull (pat : option (list Z * Z)) (skip : bool)
| AInt (k : icodec) (w : Z) (mf : option ((Z -> Z) * (Z -> Z)))
| AEnum (items : list (Z * Z)) (k : icodec) (w : Z)   (* value, acnEncodeValue *)
| AEnumEff (arr : list Z) (cnt last : Z) (vals : bool) (k : icodec) (w : Z)
| AReal (be d64 fp32 : bool)
| AStr (k : str_kind) (min max : Z)
| AOct (sz : size_kind) (min max : Z)
| ABit (sz : size_kind) (min max : Z)
| ASeqOf (t : aty) (sz : size_kind) (min max : Z)
| ASeq (fs : afields)
| AChoice (k : choice_kind) (cs : aalts)
| ARef (ok : value -> bool) (t : aty)
| AAlign (n : Z) (t : aty)
with afields :=
| GNil
| GAsn (o : aopt) (t : aty) (fs : afields)   (* ASN.1 component *)
| GAcn (d : Z) (t : aty) (fs : afields)      (* ACN inserted field *)
| GPad (t : aty) (fs : afields)              (* ACN inserted NULL *)
with aalts := HNil | HCons (t : aty) (cs : aalts).

Scheme aty_ind' := Induction for aty Sort Prop
with afields_ind' := Induction for afields Sort Prop
with aalts_ind' := Induction for aalts Sort Prop.
Combined Scheme aty_mutind from aty_ind', afields_ind', aalts_ind'.

Fixpoint aalts_len (cs : aalts) : nat :=
  match cs with HNil => O | HCons _ cs => S (aalts_len cs) end.

(** ** Integers, acn_c.stg:147-330 *)
Definition k_signed (k : icodec) : bool :=
  match k with
  | KTwos _ | KTwos8 | KTwosBE _ | KTwosLE _ | KTwosVar | KText _ | KTextVar | KTextNull _ => true
  | _ => false
  end.
Definition k_enc (c : cfg) (k : icodec) (z : Z) : M unit :=
  match k with
  | KUper a b => int_enc c (INoExt (Concrete a b)) true z
  | KPos n => Acn_Enc_Int_PositiveInteger_ConstSize c z n
  | KPos8 => Acn_Enc_Int_PositiveInteger_ConstSize_8 c z
  | KPosBE k => Acn_Enc_Int_PositiveInteger_ConstSize_big_endian c k z
  | KPosLE k => Acn_Enc_Int_PositiveInteger_ConstSize_little_endian c k z
  | KPosVar => Acn_Enc_Int_PositiveInteger_VarSize_LengthEmbedded c z
  | KTwos n => Acn_Enc_Int_TwosComplement_ConstSize c z n
  | KTwos8 => Acn_Enc_Int_TwosComplement_ConstSize_8 c z
  | KTwosBE k => Acn_Enc_Int_TwosComplement_ConstSize_big_endian c k z
  | KTwosLE k => Acn_Enc_Int_TwosComplement_ConstSize_little_endian c k z
  | KTwosVar => Acn_Enc_Int_TwosComplement_VarSize_LengthEmbedded c z
  | KBcd n => Acn_Enc_Int_BCD_ConstSize c z n
  | KBcdVar => Acn_Enc_Int_BCD_VarSize_LengthEmbedded c z
  | KBcdNull => Acn_Enc_Int_BCD_VarSize_NullTerminated c z
  | KText n => Acn_Enc_SInt_ASCII_ConstSize c z n
  | KTextVar => Acn_Enc_SInt_ASCII_VarSize_LengthEmbedded c z
  | KTextNull p => Acn_Enc_SInt_ASCII_VarSize_NullTerminated c z p (Z.of_nat (length p))
  | KUText n => Acn_Enc_UInt_ASCII_ConstSize c z n
  | KUTextNull p => Acn_Enc_UInt_ASCII_VarSize_NullTerminated c z p (Z.of_nat (length p))
  end.
Definition k_dec64 (c : cfg) (k : icodec) (w : Z) : M (option Z) :=
  match k with
  | KUper a b => int_dec c (INoExt (Concrete a b)) true w
  | KPos n => Acn_Dec_Int_PositiveInteger_ConstSize n
  | KPos8 => Acn_Dec_Int_PositiveInteger_ConstSize_8
  | KPosBE k => Acn_Dec_Int_PositiveInteger_ConstSize_big_endian k
  | KPosLE k => Acn_Dec_Int_PositiveInteger_ConstSize_little_endian k
  | KPosVar => Acn_Dec_Int_PositiveInteger_VarSize_LengthEmbedded
  | KTwos n => Acn_Dec_Int_TwosComplement_ConstSize c n
  | KTwos8 => Acn_Dec_Int_TwosComplement_ConstSize_8 c
  | KTwosBE k => Acn_Dec_Int_TwosComplement_ConstSize_big_endian c k
  | KTwosLE k => Acn_Dec_Int_TwosComplement_ConstSize_little_endian c k
  | KTwosVar => Acn_Dec_Int_TwosComplement_VarSize_LengthEmbedded c
  | KBcd n => Acn_Dec_Int_BCD_ConstSize n
  | KBcdVar => Acn_Dec_Int_BCD_VarSize_LengthEmbedded
  | KBcdNull => Acn_Dec_Int_BCD_VarSize_NullTerminated
  | KText n => Acn_Dec_SInt_ASCII_ConstSize c n
  | KTextVar => Acn_Dec_SInt_ASCII_VarSize_LengthEmbedded c
  | KTextNull p => Acn_Dec_SInt_ASCII_VarSize_NullTerminated c p (Z.of_nat (length p))
  | KUText n => Acn_Dec_UInt_ASCII_ConstSize c n
  | KUTextNull p => Acn_Dec_UInt_ASCII_VarSize_NullTerminated p (Z.of_nat (length p))
  end.
(** Suffix UInt8 .. Int32 of the decoding function; [KUper] has it already. *)
Definition k_dec (c : cfg) (k : icodec) (w : Z) : M (option Z) :=
  match k with
  | KUper _ _ => k_dec64 c k w
  | _ =>
      if w =? 64 then k_dec64 c k w
      else if k_signed k then narrow_s w (k_dec64 c k w)
      else narrow_u w (k_dec64 c k w)
  end.
(** Mapping functions: <soMF>_encode(value) as argument; MF(soMF), acn_c.stg:145,
    after a successful decoding. TwosComplement_ConstSize_big_endian_16_decode,
    acn_c.stg:226-229, has no MF. *)
Definition mf_enc (mf : option ((Z -> Z) * (Z -> Z))) (z : Z) : Z :=
  match mf with Some (f, _) => f z | None => z end.
Definition mf_dec (k : icodec) (mf : option ((Z -> Z) * (Z -> Z))) (z : Z) : Z :=
  match mf, k with
  | Some _, KTwosBE 2 => z
  | Some (_, g), _ => g z
  | None, _ => z
  end.

(** ** ENUMERATED, acn_c.stg:452-513 *)
Fixpoint code_of (z : Z) (items : list (Z * Z)) : option Z :=
  match items with
  | [] => None
  | (x, k) :: t => if x =? z then Some k else code_of z t
  end.
Fixpoint item_of (k : Z) (items : list (Z * Z)) : option Z :=
  match items with
  | [] => None
  | (x, k') :: t => if k' =? k then Some x else item_of k t
  end.

(** ** Character strings *)
(** The char array of max + 1 elements that holds the string. *)
Definition str_mem (max : Z) (l : list Z) : list Z := l ++ repeat 0 (S (Z.to_nat max) - length l).
(** The characters before the terminator. *)
Fixpoint until0 (l : list Z) : list Z :=
  match l with
  | [] => []
  | ch :: t => if ch =? 0 then [] else ch :: until0 t
  end.
Definition str_enc (c : cfg) (k : str_kind) (min max : Z) (l : list Z) : M unit :=
  let mem := str_mem max l in
  match k with
  | SAscii =>
      if min =? max then Acn_Enc_String_Ascii_FixSize c max mem
      else Acn_Enc_String_Ascii_Internal_Field_Determinant c max min mem
  | SNull p => Acn_Enc_String_Ascii_Null_Terminated_mult c max p (Z.of_nat (length p)) mem
  | SAsciiExt _ => Acn_Enc_String_Ascii_External_Field_Determinant c max mem
  | SIndexExt set _ => Acn_Enc_String_CharIndex_External_Field_Determinant c max set (Z.of_nat (length set)) mem
  | SIA5Ext _ => Acn_Enc_IA5String_CharIndex_External_Field_Determinant c max mem
  end.

(** ** Octet and bit strings without size property. AcnOctetBitStrings.fs:33-44,
    137-149 use the templates of uper_c.stg:504-547 for any size: no fragmentation. *)
Definition aoct_enc (c : cfg) (min max : Z) (l : list Z) : M bool :=
  let n := Z.of_nat (length l) in
  if min =? max then BitStream_EncodeOctetString_no_length l max
  else
    BitStream_EncodeConstraintWholeNumber c n min max ;;;
    BitStream_EncodeOctetString_no_length l n.
(** The flag of the length decoding is overwritten; nCount is then 0. *)
Definition aoct_dec (c : cfg) (min max : Z) : M (option (list Z)) :=
  if min =? max then BitStream_DecodeOctetString_no_length max
  else
    let* o := BitStream_DecodeConstraintWholeNumber c min max in
    let n := match o with Some n => n | None => 0 end in
    let? d := BitStream_DecodeOctetString_no_length n in
    if max <? n then ub else ret (Some d).
Definition abit_enc (c : cfg) (min max : Z) (l : list bool) : M bool :=
  let n := Z.of_nat (length l) in
  if min =? max then BitStream_AppendBits c (pack l) max ;;; ret true
  else
    BitStream_EncodeConstraintWholeNumber c n min max ;;;
    BitStream_AppendBits c (pack l) n ;;; ret true.
Definition abit_dec (c : cfg) (min max : Z) : M (option (list bool)) :=
  if min =? max then read_bits_in max 0 max
  else
    let? n := BitStream_DecodeConstraintWholeNumber c min max in
    read_bits_in max 0 n.

(** ** Determinants, acn_c.stg:1050-1200, BackendAst/Acn/AcnExternalField.fs and
    AcnDependencies.fs *)
Definition env := list (Z * value).
Fixpoint lookup (d : Z) (e : env) : option value :=
  match e with
  | [] => None
  | (d', v) :: e => if d =? d' then Some v else lookup d e
  end.
Fixpoint zlist_eqb (a b : list Z) : bool :=
  match a, b with
  | [], [] => true
  | x :: a, y :: b => (x =? y) && zlist_eqb a b
  | _, _ => false
  end.
(** == or strcmp *)
Definition veqb (a b : value) : bool :=
  match a, b with
  | VBool x, VBool y => Bool.eqb x y
  | VInt x, VInt y => x =? y
  | VEnum x, VEnum y => x =? y
  | VStr x, VStr y => zlist_eqb x y
  | _, _ => false
  end.

(** SizeDependency, SizeDependencyFixedSize: nCount, or the size when it is fixed *)
Definition size_dem (d : Z) (sz : size_kind) (min max n : Z) : list value :=
  match sz with
  | SzExt d' _ _ => if d =? d' then [VInt (if min =? max then max else n)] else []
  | _ => []
  end.
Definition str_dem (d : Z) (k : str_kind) (l : list Z) : list value :=
  match k with
  | SAsciiExt d' | SIndexExt _ d' | SIA5Ext d' => if d =? d' then [VInt (Uper.strlen l)] else []
  | _ => []
  end.
(** ChoiceDependencyEnum, ChoiceDependencyPres *)
Fixpoint cond_of (d : Z) (l : list (Z * value)) : list value :=
  match l with
  | [] => []
  | (d', x) :: l => if d =? d' then [x] else cond_of d l
  end.
Definition choice_dem (d : Z) (k : choice_kind) (i : nat) : list value :=
  match k with
  | CIndex => []
  | CEnum d' zs => if d =? d' then match nth_error zs i with Some z => [VEnum z] | None => [] end else []
  | CPres cs => match nth_error cs i with Some l => cond_of d l | None => [] end
  end.

(** The values that the initialised consumers of determinant [d] inside a value
    give it. A consumer inside an absent component or an alternative not selected
    is not initialised; nor are items of a list looked into. The updates of a
    type reached through parameters (RefTypeArgumentDependency) are joined with
    the others here, where the generated code nests two comparisons. *)
Fixpoint dem (d : Z) (t : aty) (v : value) {struct t} : list value :=
  match t, v with
  | AStr k _ _, VStr l => str_dem d k l
  | AOct sz min max, VOct l => size_dem d sz min max (Z.of_nat (length l))
  | ABit sz min max, VBit l => size_dem d sz min max (Z.of_nat (length l))
  | ASeqOf _ sz min max, VSeqOf l => size_dem d sz min max (Z.of_nat (length l))
  | ASeq fs, VSeq l => dem_fields d fs l
  | AChoice k cs, VChoice i v => choice_dem d k i ++ dem_alt d cs i v
  | ARef _ t, v => dem d t v
  | AAlign _ t, v => dem d t v
  | _, _ => []
  end
with dem_fields (d : Z) (fs : afields) (l : list (bool * option value)) {struct fs} : list value :=
  match fs, l with
  | GAsn o t fs, (e, ov) :: l =>
      (match o with
       | OOptional (PDet d') _ => if d =? d' then [VBool e] else []   (* PresenceDependency *)
       | _ => []
       end) ++
      (match o, e, ov with
       | OMandatory, _, Some v | OPresent, _, Some v | OOptional _ _, true, Some v => dem d t v
       | _, _, _ => []
       end) ++ dem_fields d fs l
  | GAcn _ _ fs, l => dem_fields d fs l
  | GPad _ fs, l => dem_fields d fs l
  | _, _ => []
  end
with dem_alt (d : Z) (cs : aalts) (i : nat) (v : value) {struct cs} : list value :=
  match cs, i with
  | HNil, _ => []
  | HCons t _, O => dem d t v
  | HCons _ cs, S i => dem_alt d cs i v
  end.
(** A single update, or MultiAcnUpdate: the first initialised value, compared with
    the others. [None]: not initialised, or different values. *)
Definition resolve (l : list value) : option value :=
  match l with
  | [] => None
  | x :: r => if forallb (veqb x) r then Some x else None
  end.

(** ** Encoders *)

(** sequence_presence_optChild_encode, acn_c.stg:790: all bits first *)
Fixpoint aenc_presence (c : cfg) (fs : afields) (l : list (bool * option value)) : M unit :=
  match fs, l with
  | GNil, [] => ret tt
  | GAsn (OOptional PBit _) _ fs, (e, _) :: l => BitStream_AppendBit c e ;;; aenc_presence c fs l
  | GAsn _ _ fs, _ :: l => aenc_presence c fs l
  | GAcn _ _ fs, l => aenc_presence c fs l
  | GPad _ fs, l => aenc_presence c fs l
  | _, _ => ub
  end.

(** Acn_AlignTo<...>, acn_c.stg:133-143 *)
Definition align_to (c : cfg) (n : Z) : M unit :=
  if n =? 8 then Acn_AlignToNextByte c else if n =? 16 then Acn_AlignToNextWord c else Acn_AlignToNextDWord c.

(** [h]: whether the host is little endian. The result is ret, which is TRUE when a
    body is entered. *)
Fixpoint aenc (c : cfg) (h : bool) (t : aty) (v : value) {struct t} : M bool :=
  match t, v with
  | AUper t, v => Uper.enc c t true v
  | ABool _ tp fp n, VBool b => BitStream_AppendBits c (if b then tp else fp) n ;;; ret true
  | ANull None _, VNull => ret true
  | ANull (Some (p, n)) _, VNull => BitStream_AppendBits c p n ;;; ret true
  | AInt k _ mf, VInt z => k_enc c k (mf_enc mf z) ;;; ret true
  | AEnum items k _, VEnum z =>
      match code_of z items with
      | Some z' => k_enc c k z' ;;; ret true
      | None => ret false
      end
  | AEnumEff arr cnt last vals k _, VEnum z =>
      let* i := lift (binarySearch arr cnt z) in
      if (0 <=? i) && (i <=? last) then
        let* z' := (if vals then lift (nthZ arr i) else ret i) in
        k_enc c k z' ;;; ret true
      else ret false
  | AReal be d64 fp32, VReal x =>
      (if d64 then
         if be then Acn_Enc_Real_IEEE754_64_big_endian h x else Acn_Enc_Real_IEEE754_64_little_endian h x
       else
         let x := if fp32 then float_to_double x else x in   (* the parameter is a double *)
         if be then Acn_Enc_Real_IEEE754_32_big_endian h x else Acn_Enc_Real_IEEE754_32_little_endian h x) ;;;
      ret true
  | AStr k min max, VStr l => str_enc c k min max l ;;; ret true
  | AOct sz min max, VOct l =>
      let n := Z.of_nat (length l) in
      match sz with
      | SzFixed | SzEmbedded => aoct_enc c min max l
      | SzExt _ _ _ => BitStream_EncodeOctetString_no_length l (if min =? max then max else n)
      | SzNull pat k =>
          let* r := enc_items oct_enc l true (length l) 0 true in
          BitStream_AppendBits c pat k ;;; ret r
      end
  | ABit sz min max, VBit l =>
      let n := Z.of_nat (length l) in
      match sz with
      | SzFixed | SzEmbedded => abit_enc c min max l
      | SzExt _ _ _ => BitStream_AppendBits c (pack l) (if min =? max then max else n) ;;; ret true
      | SzNull pat k => BitStream_AppendBits c (pack l) n ;;; BitStream_AppendBits c pat k ;;; ret true
      end
  | ASeqOf t sz min max, VSeqOf l =>
      let n := length l in
      let item := fun (_ : bool) x => aenc c h t x in
      match sz with
      | SzFixed => enc_items item l true (Z.to_nat max) 0 true
      | SzEmbedded =>
          BitStream_EncodeConstraintWholeNumber c (Z.of_nat n) min max ;;;
          enc_items item l true n 0 true
      | SzExt _ _ _ => enc_items item l true (if min =? max then Z.to_nat max else n) 0 true
      | SzNull pat k =>
          let* r := enc_items item l true n 0 true in
          BitStream_AppendBits c pat k ;;; ret r
      end
  | ASeq fs, VSeq l => aenc_presence c fs l ;;; aenc_fields c h fs l
  | AChoice k cs, VChoice i v =>
      if (i <? aalts_len cs)%nat then
        (match k with
         | CIndex => BitStream_EncodeConstraintWholeNumber c (Z.of_nat i) 0 (Z.of_nat (aalts_len cs) - 1)
         | _ => ret tt
         end) ;;;
        aenc_alt c h cs i v
      else ret false
  | ARef _ t, v => aenc c h t v
  | AAlign n t, v => align_to c n ;;; aenc c h t v
  | _, _ => ub
  end
with aenc_fields (c : cfg) (h : bool) (fs : afields) (l : list (bool * option value)) {struct fs} : M bool :=
  match fs, l with
  | GNil, [] => ret true
  | GAsn o t fs, (e, ov) :: l =>
      let* r := (match o, e, ov with
                 | OAbsent, _, _ | OOptional _ _, false, _ => ret true
                 | _, _, Some v => aenc c h t v
                 | _, _, None => ub
                 end) in
      if r then aenc_fields c h fs l else ret false
  | GAcn d t fs, l =>
      match resolve (dem_fields d fs l) with
      | Some x =>
          let* r := aenc c h t x in
          if r then aenc_fields c h fs l else ret false
      | None => ret false
      end
  | GPad t fs, l =>
      let* r := aenc c h t VNull in
      if r then aenc_fields c h fs l else ret false
  | _, _ => ub
  end
with aenc_alt (c : cfg) (h : bool) (cs : aalts) (i : nat) (v : value) {struct cs} : M bool :=
  match cs, i with
  | HNil, _ => ub
  | HCons t _, O => aenc c h t v
  | HCons _ cs, S i => aenc_alt c h cs i v
  end.

(** ** Decoders *)

(** External length fields: the tests on the determinant, then nCount = (int)ext. *)
Definition ext_check (lo hi : option Z) (x : Z) : bool :=
  (match lo with Some a => a <=? x | None => true end) &&
  (match hi with Some b => x <=? b | None => true end).
Definition ext_int (d : Z) (e : env) : M Z :=
  match lookup d e with Some (VInt x) => ret x | _ => ub end.

(** oct_sqf_null_terminated_decode, acn_c.stg:695-720. [after x] is what decoding
    item x leaves in checkBitPatternPresentResult, one variable of the function,
    if it writes it. [None] inside: the counter is not set. *)
Fixpoint null_loop {A} (f : M (option A)) (after : A -> option Z) (pat : list Z) (n : Z) (k : nat) (chk : Z)
  : M (option (Z * list A)) :=
  match k with
  | O => ret (Some (chk, []))
  | S k =>
      let* r := BitStream_checkBitPatternPresent pat n in
      if r =? 1 then
        let? x := f in
        let? p := null_loop f after pat n k (match after x with Some r => r | None => 1 end) in
        ret (Some (fst p, x :: snd p))
      else ret (Some (r, []))
  end.
Definition null_dec {A} (f : M (option A)) (after : A -> option Z) (pat : list Z) (n max : Z) (mk : list A -> value)
  : M (option value) :=
  let? p := null_loop f after pat n (Z.to_nat max) 0 in
  let* chk := (if (Z.of_nat (length (snd p)) =? max) && (fst p =? 1)
               then BitStream_checkBitPatternPresent pat n else ret (fst p)) in
  ret (if chk =? 0 then None else if chk =? 2 then Some (mk (snd p)) else Some VJunk).

(** What decoding a value leaves in checkBitPatternPresentResult. A function of its
    own ([ARef]) has its own variable. *)
Definition last_chk (a b : option Z) : option Z := match b with Some _ => b | None => a end.
Fixpoint chk_after (t : aty) (v : value) {struct t} : option Z :=
  match t, v with
  | AOct (SzNull _ _) _ max, v => if max <=? 0 then None else match v with VJunk => Some 1 | _ => Some 2 end
  | ASeqOf t sz _ max, v =>
      match sz with
      | SzNull _ _ => if max <=? 0 then None else match v with VJunk => Some 1 | _ => Some 2 end
      | _ =>
          match v with
          | VSeqOf l => fold_left (fun a x => last_chk a (chk_after t x)) l None
          | _ => None
          end
      end
  | ASeq fs, VSeq l => chk_fields fs l
  | AChoice _ cs, VChoice i v => chk_alt cs i v
  | AAlign _ t, v => chk_after t v
  | _, _ => None
  end
with chk_fields (fs : afields) (l : list (bool * option value)) {struct fs} : option Z :=
  match fs, l with
  | GAsn _ t fs, (e, ov) :: l =>
      last_chk (match e, ov with true, Some v => chk_after t v | _, _ => None end) (chk_fields fs l)
  | GAcn _ _ fs, l => chk_fields fs l
  | GPad _ fs, l => chk_fields fs l
  | _, _ => None
  end
with chk_alt (cs : aalts) (i : nat) (v : value) {struct cs} : option Z :=
  match cs, i with
  | HNil, _ => None
  | HCons t _, O => chk_after t v
  | HCons _ cs, S i => chk_alt cs i v
  end.

(** Octet string with an external length into an array of [max] octets:
    oct_external_field_decode, acn_c.stg:601-640. A negative nCount gives [VJunk]. *)
Definition oct_ext_dec (d : Z) (lo hi : option Z) (min max : Z) (e : env) : M (option value) :=
  let* x := ext_int d e in
  if min =? max then
    if ext_check lo (Some max) x then
      let? l := BitStream_DecodeOctetString_no_length max in ret (Some (VOct l))
    else ret None
  else if ext_check lo hi x then
    let n := s32 x in
    let? l := BitStream_DecodeOctetString_no_length n in
    if max <? n then ub else ret (Some (if n <? 0 then VJunk else VOct l))
  else ret None.
(** bit_string_external_field_decode, acn_c.stg:728-764 *)
Definition bit_ext_dec (d : Z) (lo hi : option Z) (min max : Z) (e : env) : M (option value) :=
  let* x := ext_int d e in
  if min =? max then
    if ext_check lo (Some max) x then
      let? l := read_bits_in max 0 max in ret (Some (VBit l))
    else ret None
  else if ext_check lo hi x then
    let n := s32 x in
    let? l := read_bits_in max 0 n in ret (Some (if n <? 0 then VJunk else VBit l))
  else ret None.

Definition str_dec (c : cfg) (k : str_kind) (min max : Z) (e : env) : M (option value) :=
  let dst := repeat 0 (S (Z.to_nat max)) in
  let? l :=
    (match k with
     | SAscii =>
         if min =? max then Acn_Dec_String_Ascii_FixSize max dst
         else Acn_Dec_String_Ascii_Internal_Field_Determinant c max min dst
     | SNull p => Acn_Dec_String_Ascii_Null_Terminated_mult max p (Z.of_nat (length p)) dst
     | SAsciiExt d =>
         let* x := ext_int d e in Acn_Dec_String_Ascii_External_Field_Determinant max x dst
     | SIndexExt set d =>
         let* x := ext_int d e in
         Acn_Dec_String_CharIndex_External_Field_Determinant c max set (Z.of_nat (length set)) x dst
     | SIA5Ext d =>
         let* x := ext_int d e in Acn_Dec_IA5String_CharIndex_External_Field_Determinant c max x dst
     end) in
  ret (Some (VStr (until0 l))).

(** Real_*_decode, acn_c.stg:333-356. Real_32_little_endian_decode does not assign
    ret, so failure goes unnoticed and the variable keeps its contents. A 64 bit
    encoding is decoded into a double variable. *)
Definition real_dec (h be d64 fp32 : bool) : M (option value) :=
  if d64 then
    let? x := (if be then Acn_Dec_Real_IEEE754_64_big_endian h else Acn_Dec_Real_IEEE754_64_little_endian h) in
    ret (Some (VReal x))
  else if be then
    let? x := (if fp32 then Acn_Dec_Real_IEEE754_32_big_endian_fp32 h else Acn_Dec_Real_IEEE754_32_big_endian h) in
    ret (Some (VReal x))
  else
    let* o := (if fp32 then Acn_Dec_Real_IEEE754_32_little_endian_fp32 h else Acn_Dec_Real_IEEE754_32_little_endian h) in
    ret (Some (match o with Some x => VReal x | None => VJunk end)).

(** The first alternative all of whose conditions hold,
    ChoiceChild_preWhen_decode, acn_c.stg:998 *)
Definition cond_holds (e : env) (p : Z * value) : outcome bool :=
  match lookup (fst p) e with Some x => Ok (veqb x (snd p)) | None => UB end.
Fixpoint conds_hold (e : env) (l : list (Z * value)) : outcome bool :=
  match l with
  | [] => Ok true
  | p :: l =>
      match cond_holds e p with Ok true => conds_hold e l | r => r end
  end.
Fixpoint select (e : env) (cs : list (list (Z * value))) (i : nat) : outcome (option nat) :=
  match cs with
  | [] => Ok None
  | l :: cs =>
      match conds_hold e l with
      | Ok true => Ok (Some i)
      | Ok false => select e cs (S i)
      | _ => UB
      end
  end.

(** sequence_presence_optChild_decode, acn_c.stg:791-795 *)
Fixpoint adec_presence (fs : afields) : M (option (list bool)) :=
  match fs with
  | GNil => ret (Some [])
  | GAsn (OOptional PBit _) _ fs =>
      let* b := BitStream_ReadBit in
      if fst b then let? es := adec_presence fs in ret (Some (snd b :: es)) else ret None
  | GAsn _ _ fs => let? es := adec_presence fs in ret (Some (true :: es))
  | GAcn _ _ fs => adec_presence fs
  | GPad _ fs => adec_presence fs
  end.

Fixpoint adec (c : cfg) (h : bool) (t : aty) (e : env) {struct t} : M (option value) :=
  match t with
  | AUper t => Uper.dec c t true
  | ABool k tp fp n =>
      match k with
      | BTrue => let? b := BitStream_ReadBitPattern tp n in ret (Some (VBool b))
      | BFalse => let? b := BitStream_ReadBitPattern fp n in ret (Some (VBool (negb b)))
      | BBoth => let? b := BitStream_DecodeTrueFalseBoolean tp fp n in ret (Some (VBool b))
      end
  | ANull None _ => ret (Some VNull)
  | ANull (Some (p, n)) skip =>
      if skip then let? _ := BitStream_ReadBitPattern_ignore_value n in ret (Some VNull)
      else let? b := BitStream_ReadBitPattern p n in ret (if (b : bool) then Some VNull else None)
  | AInt k w mf => let? z := k_dec c k w in ret (Some (VInt (mf_dec k mf z)))
  | AEnum items k w =>
      let? z := k_dec c k w in
      ret (match item_of z items with Some x => Some (VEnum x) | None => None end)
  | AEnumEff arr cnt last vals k w =>
      let? z := k_dec c k w in
      let* i := (if vals then lift (binarySearch arr cnt z) else ret z) in
      if (0 <=? i) && (i <=? last) then let* x := lift (nthZ arr i) in ret (Some (VEnum x))
      else ret None
  | AReal be d64 fp32 => real_dec h be d64 fp32
  | AStr k min max => str_dec c k min max e
  | AOct sz min max =>
      match sz with
      | SzFixed | SzEmbedded => let? l := aoct_dec c min max in ret (Some (VOct l))
      | SzExt d lo hi => oct_ext_dec d lo hi min max e
      | SzNull pat n => null_dec (oct_dec true) (fun _ => None) pat n max VOct
      end
  | ABit sz min max =>
      match sz with
      | SzFixed | SzEmbedded => let? l := abit_dec c min max in ret (Some (VBit l))
      | SzExt d lo hi => bit_ext_dec d lo hi min max e
      | SzNull pat n =>
          let? p := BitStream_ReadBits_nullterminated c pat n (repeat 0 (Z.to_nat ((max + 7) / 8))) max in
          ret (Some (VBit (take_bits (fst p) (snd p))))
      end
  | ASeqOf t sz min max =>
      let item := fun _ : bool => adec c h t e in
      match sz with
      | SzFixed => let? l := dec_items item max (Z.to_nat max) 0 in ret (Some (VSeqOf l))
      | SzEmbedded =>
          let? n := BitStream_DecodeConstraintWholeNumber c min max in
          let? l := dec_items item max (Z.to_nat n) 0 in ret (Some (VSeqOf l))
      | SzExt d lo _ =>
          let* x := ext_int d e in
          if ext_check lo (Some max) x then
            let n := if min =? max then max else s32 x in
            let? l := dec_items item max (Z.to_nat n) 0 in
            ret (Some (if n <? 0 then VJunk else VSeqOf l))
          else ret None
      | SzNull pat n => null_dec (adec c h t e) (chk_after t) pat n max VSeqOf
      end
  | ASeq fs =>
      let? es := adec_presence fs in
      let? l := adec_fields c h fs es e in
      ret (Some (VSeq l))
  | AChoice k cs =>
      let? i :=
        (match k with
         | CIndex =>
             let? i := BitStream_DecodeConstraintWholeNumber c 0 (Z.of_nat (aalts_len cs) - 1) in
             ret (if (0 <=? i) && (i <? Z.of_nat (aalts_len cs)) then Some (Z.to_nat i) else None)
         | CEnum d zs =>
             match lookup d e with
             | Some (VEnum z) => ret (option_map Z.to_nat (find_item z zs 0))
             | _ => ub
             end
         | CPres conds => lift (select e conds 0)
         end) in
      let? v := adec_alt c h cs i e in
      ret (Some (VChoice i v))
  | ARef ok t => let? v := adec c h t e in ret (if ok v then Some v else None)
  | AAlign n t => align_to c n ;;; adec c h t e
  end
with adec_fields (c : cfg) (h : bool) (fs : afields) (es : list bool) (e : env) {struct fs}
  : M (option (list (bool * option value))) :=
  match fs, es with
  | GNil, [] => ret (Some [])
  | GAsn o t fs, b :: es =>
      let? x :=
        (match o with
         | OMandatory | OPresent => let? v := adec c h t e in ret (Some (true, Some v))
         | OAbsent => ret (Some (false, None))
         | OOptional k def =>
             let* p := (match k with
                        | PBit => ret b
                        | PDet d => match lookup d e with Some (VBool b) => ret b | _ => ub end
                        end) in
             if (p : bool) then let? v := adec c h t e in ret (Some (true, Some v))
             else ret (Some (false, def))
         end) in
      let? l := adec_fields c h fs es e in
      ret (Some (x :: l))
  | GAcn d t fs, es =>
      let? x := adec c h t e in
      adec_fields c h fs es ((d, x) :: e)
  | GPad t fs, es =>
      let? _ := adec c h t e in
      adec_fields c h fs es e
  | _, _ => ub
  end
with adec_alt (c : cfg) (h : bool) (cs : aalts) (i : nat) (e : env) {struct cs} : M (option value) :=
  match cs, i with
  | HNil, _ => ub
  | HCons t _, O => adec c h t e
  | HCons _ cs, S i => adec_alt c h cs i e
  end.

(** ** Functions of a type assignment, acn_c.stg:31-87 *)
Definition ACN_Encode (c : cfg) (h : bool) (t : aty) (ok : value -> bool) (check : bool) (v : value) : M bool :=
  if (if check then ok v else true) then aenc c h t v else ret false.
Definition ACN_Decode (c : cfg) (h : bool) (t : aty) (ok : value -> bool) : M (option value) :=
  let? v := adec c h t [] in ret (if ok v then Some v else None).
