(** The code generated for uPER: StgC/uper_c.stg and BackendAst/DAstUPer.fs. A
    type is compiled to a statement list working on the local variable ret; here
    [enc c t r v] runs the encoder of t with ret = r and returns the final ret,
    [dec c t r] the decoder; its result is None when the final ret is FALSE.
    Integer arguments are passed unconverted: for the types accepted by the
    front end they are representable. A value of the wrong shape is UB. *)
From Verif Require Import Base Bits BitStream Ints Octets Misc Oid RealSpec RealC UperTypes.

(** ** Integers *)

(** IntBod, DAstUPer.fs:178-187, and uper_c.stg:146-207. [x]: inside an
    extensible constraint (extCon). *)
Definition range_enc (c : cfg) (r : range) (p x : bool) (v : Z) : M unit :=
  match r with
  | Concrete a b =>
      if a =? b then ret tt
      else if p && negb x then BitStream_EncodeConstraintPosWholeNumber c v a b
      else BitStream_EncodeConstraintWholeNumber c v a b
  | PosInf a =>
      if (0 <=? a) && negb x then BitStream_EncodeSemiConstraintPosWholeNumber c v a
      else BitStream_EncodeSemiConstraintWholeNumber c v a
  | NegInf _ | Full => BitStream_EncodeUnConstraintWholeNumber c v
  end.
(** The suffix of the function name (getIntDecFuncSuffix, DAstUPer.fs:125-138)
    selects the variant for the width of the C type. *)
Definition range_dec (c : cfg) (r : range) (p : bool) (w : Z) (x : bool) : M (option Z) :=
  match r with
  | Concrete a b =>
      if a =? b then ret (Some a)
      else if p && negb x then
        if w =? 64 then BitStream_DecodeConstraintPosWholeNumber c a b
        else BitStream_DecodeConstraintPosWholeNumberUIntN c w a b
      else
        if w =? 64 then BitStream_DecodeConstraintWholeNumber c a b
        else BitStream_DecodeConstraintWholeNumberIntN c w a b
  | PosInf a =>
      if (0 <=? a) && negb x then BitStream_DecodeSemiConstraintPosWholeNumber c a
      else BitStream_DecodeSemiConstraintWholeNumber c a
  | NegInf _ | Full => BitStream_DecodeUnConstraintWholeNumber c
  end.

(** IntRootExt_encode, IntRootExt2_encode, uper_c.stg:209-212, 245-254 *)
Definition int_enc (c : cfg) (i : ispec) (p : bool) (v : Z) : M unit :=
  match i with
  | INoExt r => range_enc c r p false v
  | IExt r => BitStream_AppendBitZero c ;;; range_enc c r p true v
  | IExt2 r isr =>
      if isr v then BitStream_AppendBitZero c ;;; range_enc c r p true v
      else BitStream_AppendBitOne c ;;; BitStream_EncodeUnConstraintWholeNumber c v
  end.
(** IntRootExt_decode, uper_c.stg:215-230; IntRootExt2_decode is the same. *)
Definition int_dec (c : cfg) (i : ispec) (p : bool) (w : Z) : M (option Z) :=
  match i with
  | INoExt r => range_dec c r p w false
  | IExt r | IExt2 r _ =>
      let* b := BitStream_ReadBit in
      if fst b then
        if snd b then BitStream_DecodeUnConstraintWholeNumber c else range_dec c r p w true
      else ret None
  end.

(** ** Enumerated *)

(** switch: the index of the first matching case *)
Fixpoint find_item (v : Z) (items : list Z) (i : Z) : option Z :=
  match items with
  | [] => None
  | x :: t => if x =? v then Some i else find_item v t (i + 1)
  end.
(** Enumerated_encode, Enumerated_no_switch_encode, uper_c.stg:299-340 *)
Definition enum_enc (c : cfg) (items : list Z) (eff : option (list Z)) (r : bool) (v : Z) : M bool :=
  let last := Z.of_nat (length items) - 1 in
  match eff with
  | None =>
      match find_item v items 0 with
      | Some i => BitStream_EncodeConstraintWholeNumber c i 0 last ;;; ret r
      | None => ret false
      end
  | Some arr =>
      let* i := lift (binarySearch arr (Z.of_nat (length items)) v) in
      if (0 <=? i) && (i <=? last) then
        BitStream_EncodeConstraintWholeNumber c i 0 last ;;; ret true
      else ret false
  end.
(** Enumerated_decode, Enumerated_no_switch_decode *)
Definition enum_dec (c : cfg) (items : list Z) (eff : option (list Z)) : M (option value) :=
  let last := Z.of_nat (length items) - 1 in
  let? i := BitStream_DecodeConstraintWholeNumber c 0 last in
  match eff with
  | None =>
      ret (if i <? 0 then None
           else match nth_error items (Z.to_nat i) with Some v => Some (VEnum v) | None => None end)
  | Some arr =>
      if (0 <=? i) && (i <=? last) then
        let* v := lift (nthZ arr i) in ret (Some (VEnum v))
      else ret None
  end.

(** ** Loops over items *)

(** A for loop over items i .. i+k-1 of [l] setting or keeping ret; [g]: whether
    the loop tests ret (loopFixedItem, uper_c.stg:448-453, does; the loops of the
    fragmentation templates do not). *)
Fixpoint enc_items {A} (f : bool -> A -> M bool) (l : list A) (g : bool) (k : nat) (i : Z) (r : bool) : M bool :=
  match k with
  | O => ret r
  | S k' =>
      if g && negb r then ret r
      else
        let* v := lift (match nth_error l (Z.to_nat i) with Some v => Ok v | None => UB end) in
        let* r' := f r v in
        enc_items f l g k' (i + 1) r'
  end.

(** A for loop testing ret that decodes items i .. i+k-1 into an array of
    [cap] elements. *)
Fixpoint dec_items {A} (f : bool -> M (option A)) (cap : Z) (k : nat) (i : Z) : M (option (list A)) :=
  match k with
  | O => ret (Some [])
  | S k' =>
      if cap <=? i then ub
      else
        let? x := f true in
        let? l := dec_items f cap k' (i + 1) in
        ret (Some (x :: l))
  end.

(** The same without testing ret: all items are processed, the final ret is
    that of the last one. [junk] stands for the contents of a failed item. *)
Fixpoint dec_items_u {A} (f : bool -> M (option A)) (junk : A) (cap : Z) (k : nat) (i : Z) (r : bool)
  : M (list A * bool) :=
  match k with
  | O => ret ([], r)
  | S k' =>
      if cap <=? i then ub
      else
        let* o := f r in
        let '(x, r') := match o with Some x => (x, true) | None => (junk, false) end in
        let* p := dec_items_u f junk cap k' (i + 1) r' in
        ret (x :: fst p, snd p)
  end.

(** ** Fragmentation, variable size *)

(** Fragmentation_sqf_encode, uper_c.stg:614-669; [blk r off len] *)
Fixpoint enc_frag_r (c : cfg) (blk : bool -> Z -> Z -> M bool) (fuel : nat) (off rem : Z) (r : bool) : M bool :=
  match fuel with
  | O => diverge
  | S f =>
      if 0x4000 <=? rem then
        let (bs, id) := frag_block rem in
        BitStream_EncodeConstraintWholeNumber c id 0 0xFF ;;;
        let* r' := blk r off bs in
        enc_frag_r c blk f (off + bs) (rem - bs) r'
      else
        (if rem <=? 0x7F then BitStream_EncodeConstraintWholeNumber c rem 0 0xFF
         else BitStream_AppendBit c true ;;;
              BitStream_EncodeConstraintWholeNumber c rem 0 0x7FFF) ;;;
        blk r off rem
  end.

(** ** Fragmentation, fixed size *)

(** FragmentationParts, DAstUPer.fs:341-363: number of 64K blocks; the smaller
    blocks as (identifier, size); number of remaining items. *)
Definition small_parts (m : Z) : list (Z * Z) :=
  let (p48, m1) := if 0xC000 <=? m then ([(0xC3, 0xC000)], m - 0xC000) else ([], m) in
  let (p32, m2) := if 0x8000 <=? m1 then ([(0xC2, 0x8000)], m1 - 0x8000) else ([], m1) in
  let (p16, m3) := if 0x4000 <=? m2 then ([(0xC1, 0x4000)], m2 - 0x4000) else ([], m2) in
  p48 ++ p32 ++ p16.
Definition parts_total (l : list (Z * Z)) : Z := fold_right (fun p a => snd p + a) 0 l.

(** FixedSize_Fragmentation_sqf_64K_encode, uper_c.stg:558-577 *)
Fixpoint enc_64K (c : cfg) (blk : bool -> Z -> Z -> M bool) (k : nat) (off : Z) (r : bool) : M bool :=
  match k with
  | O => ret r
  | S k' =>
      BitStream_EncodeConstraintWholeNumber c 0xC4 0 0xFF ;;;
      let* r' := blk r off 0x10000 in
      enc_64K c blk k' (off + 0x10000) r'
  end.
(** FixedSize_Fragmentation_sqf_small_block_encode and _remaining_encode,
    uper_c.stg:579-606; each statement runs only if the previous one left ret
    TRUE (JoinItems2, isvalid_c.stg:22, as used by handleFixedSizeFragmentation,
    DAstUPer.fs:365-403). The first one is the 64K loop. *)
Fixpoint enc_small (c : cfg) (blk : bool -> Z -> Z -> M bool) (ps : list (Z * Z)) (off rem : Z) (r : bool) : M bool :=
  if negb r then ret r
  else
    match ps with
    | (id, bs) :: ps' =>
        BitStream_EncodeConstraintWholeNumber c id 0 0xFF ;;;
        let* r' := blk r off bs in
        enc_small c blk ps' (off + bs) rem r'
    | [] =>
        if rem =? 0 then ret r
        else
          (if rem <=? 0x7F then BitStream_EncodeConstraintWholeNumber c rem 0 0xFF
           else BitStream_AppendBit c true ;;;
                BitStream_EncodeConstraintWholeNumber c rem 0 0x7FFF) ;;;
          blk r off rem
    end.
Definition enc_fixed (c : cfg) (blk : bool -> Z -> Z -> M bool) (n : Z) (r : bool) : M bool :=
  let q := n / 0x10000 in
  let m := n mod 0x10000 in
  let* r' := enc_64K c blk (Z.to_nat q) 0 r in
  enc_small c blk (small_parts m) (q * 0x10000) (m - parts_total (small_parts m)) r'.

(** FixedSize_Fragmentation_sqf_64K_decode, uper_c.stg:673-697. [blk a off len]
    returns the destination and the final ret. *)
Fixpoint dec_64K {A} (c : cfg) (blk : A -> Z -> Z -> M (A * bool)) (k : nat) (a : A) (off : Z) : M (option A) :=
  match k with
  | O => ret (Some a)
  | S k' =>
      let? h := BitStream_DecodeConstraintWholeNumber c 0 0xFF in
      if h =? 0xC4 then
        let* p := blk a off 0x10000 in
        if snd p then dec_64K c blk k' (fst p) (off + 0x10000) else ret None
      else ret None
  end.
(** FixedSize_Fragmentation_sqf_small_block_decode and _remaining_decode,
    uper_c.stg:700-745 *)
Fixpoint dec_small {A} (c : cfg) (blk : A -> Z -> Z -> M (A * bool)) (ps : list (Z * Z)) (a : A) (off rem : Z)
  : M (option A) :=
  match ps with
  | (id, bs) :: ps' =>
      let? h := BitStream_DecodeConstraintWholeNumber c 0 0xFF in
      if h =? id then
        let* p := blk a off bs in
        if snd p then dec_small c blk ps' (fst p) (off + bs) rem else ret None
      else ret None
  | [] =>
      if rem =? 0 then ret (Some a)
      else
        let? h := (if rem <=? 0x7F then BitStream_DecodeConstraintWholeNumber c 0 0xFF
                   else BitStream_DecodeConstraintWholeNumber c 0 0xFFFF) in
        if (if rem <=? 0x7F then h =? rem
            else (0 <? Z.land 0x8000 h) && (Z.land 0x7FFF h =? rem)) then
          let* p := blk a off rem in
          ret (if snd p then Some (fst p) else None)
        else ret None
  end.
Definition dec_fixed {A} (c : cfg) (blk : A -> Z -> Z -> M (A * bool)) (n : Z) (a : A) : M (option A) :=
  let q := n / 0x10000 in
  let m := n mod 0x10000 in
  let? a' := dec_64K c blk (Z.to_nat q) a 0 in
  dec_small c blk (small_parts m) a' (q * 0x10000) (m - parts_total (small_parts m)).

(** ** Items with a size constraint *)

(** str_/seqOf_ FixedSize and VarSize, uper_c.stg:456-507, and
    handleFragmentation, DAstUPer.fs:405-427. [n] is the number of items in the
    value (nCount or strlen). *)
Definition sized_enc {A} (c : cfg) (f : bool -> A -> M bool) (l : list A) (n min max : Z) (r : bool) : M bool :=
  if max <? 65536 then
    if min =? max then enc_items f l true (Z.to_nat max) 0 r
    else
      BitStream_EncodeConstraintWholeNumber c n min max ;;;
      enc_items f l true (Z.to_nat n) 0 r
  else
    let blk := fun r off len => enc_items f l false (Z.to_nat len) off r in
    if min =? max then enc_fixed c blk max r
    else enc_frag_r c blk (frag_fuel n) 0 n r.

(** The early "return FALSE" of Fragmentation_sqf_decode (uper_c.stg:777, 781) is
    modelled as ret = FALSE, the only difference being inside an item of a loop
    that ignores ret. *)
Definition sized_dec {A} (c : cfg) (f : bool -> M (option A)) (junk : A) (min max : Z) (r : bool)
  : M (option (list A)) :=
  if max <? 65536 then
    if min =? max then (if r then dec_items f max (Z.to_nat max) 0 else ret None)
    else
      let? n := BitStream_DecodeConstraintWholeNumber c min max in
      dec_items f max (Z.to_nat n) 0
  else if min =? max then
    if r then
      dec_fixed c (fun a off len =>
        let* p := dec_items_u f junk max (Z.to_nat len) off true in
        ret (a ++ fst p, snd p)) max []
    else ret None
  else
    let? h := BitStream_DecodeConstraintWholeNumber c 0 0xFF in
    let? p := dec_frag c (fun a off len =>
        let? l := dec_items f max (Z.to_nat len) off in ret (Some (a ++ l)))
      min max (frag_fuel max) [] 0 h in
    ret (Some (snd p)).

(** ** Strings *)

(** InternalItem_string_with_alpha, _no_alpha, uper_c.stg:120-142 *)
Definition char_enc (c : cfg) (alpha : option (list Z)) (r : bool) (ch : Z) : M bool :=
  match alpha with
  | None => BitStream_EncodeConstraintWholeNumber c ch 0 127 ;;; ret r
  | Some set =>
      let* i := lift (GetCharIndex ch set (Z.of_nat (length set))) in
      BitStream_EncodeConstraintWholeNumber c i 0 (Z.of_nat (length set) - 1) ;;;
      ret r
  end.
Definition char_dec (c : cfg) (alpha : option (list Z)) (r : bool) : M (option Z) :=
  match alpha with
  | None => BitStream_DecodeConstraintWholeNumber c 0 127
  | Some set =>
      let last := Z.of_nat (length set) - 1 in
      let? i := BitStream_DecodeConstraintWholeNumber c 0 last in
      if (i <? 0) || (last <? i) then ret None
      else let* ch := lift (nthZ set i) in ret (Some ch)
  end.
(** strlen of the characters followed by the terminator *)
Fixpoint strlen (l : list Z) : Z :=
  match l with
  | [] => 0
  | ch :: t => if ch =? 0 then 0 else 1 + strlen t
  end.

(** InternalItem_oct_str, uper_c.stg:107-114. The flag of BitStream_AppendByte0 is
    ignored. *)
Definition oct_enc (r : bool) (b : Z) : M bool := BitStream_AppendByte0 b ;;; ret r.
Definition oct_dec (r : bool) : M (option Z) := BitStream_ReadByte.

(** octet_FixedSize_, octet_VarSize_encode, uper_c.stg:511-523 *)
Definition octet_enc (c : cfg) (min max : Z) (l : list Z) (r : bool) : M bool :=
  let n := Z.of_nat (length l) in
  if max <? 65536 then
    if min =? max then BitStream_EncodeOctetString_no_length l max
    else
      BitStream_EncodeConstraintWholeNumber c n min max ;;;
      BitStream_EncodeOctetString_no_length l n
  else sized_enc c oct_enc l n min max r.
(** octet_FixedSize_, octet_VarSize_decode, uper_c.stg:515, 525-530. In the latter
    the flag of the length decoding is overwritten; nCount is then 0, the value
    BitStream_DecodeConstraintWholeNumber stores first (asn1crt_encoding.c:810). *)
Definition octet_dec (c : cfg) (min max : Z) (r : bool) : M (option (list Z)) :=
  if max <? 65536 then
    if min =? max then BitStream_DecodeOctetString_no_length max
    else
      let* o := BitStream_DecodeConstraintWholeNumber c min max in
      let n := match o with Some n => n | None => 0 end in
      let? d := BitStream_DecodeOctetString_no_length n in
      if max <? n then ub else ret (Some d)
  else sized_dec c oct_dec 0 min max r.

(** bitString_FixSize, bitString_VarSize, uper_c.stg:537-553, and fragmentation with
    bIsBitStringType. The C value is the packed bits; block offsets are
    multiples of 8. *)
Definition bit_enc (c : cfg) (min max : Z) (l : list bool) (r : bool) : M bool :=
  let n := Z.of_nat (length l) in
  let arr := pack l in
  if max <? 65536 then
    if min =? max then BitStream_AppendBits c arr max ;;; ret r
    else
      BitStream_EncodeConstraintWholeNumber c n min max ;;;
      BitStream_AppendBits c arr n ;;; ret r
  else
    let blk := fun r off len => BitStream_AppendBits c (tail_from arr (Z.quot off 8)) len ;;; ret r in
    if min =? max then enc_fixed c blk max r
    else enc_frag_r c blk (frag_fuel n) 0 n r.
(** ReadBits into an array for [max] bits; the bits read are returned *)
Definition read_bits_in (max off len : Z) : M (option (list bool)) :=
  let? d := BitStream_ReadBits len in
  if (max + 7) / 8 <? Z.quot off 8 + Z.of_nat (length d) then ub
  else ret (Some (take_bits len d)).
Definition bit_dec (c : cfg) (min max : Z) (r : bool) : M (option (list bool)) :=
  if max <? 65536 then
    if min =? max then read_bits_in max 0 max
    else
      let? n := BitStream_DecodeConstraintWholeNumber c min max in
      read_bits_in max 0 n
  else if min =? max then
    if r then
      dec_fixed c (fun a off len =>
        let* o := read_bits_in max off len in
        ret (match o with Some l => (a ++ l, true) | None => (a, false) end)) max []
    else ret None
  else
    let? h := BitStream_DecodeConstraintWholeNumber c 0 0xFF in
    let? p := dec_frag c (fun a off len =>
        let? l := read_bits_in max off len in ret (Some (a ++ l)))
      min max (frag_fuel max) [] 0 h in
    ret (Some (snd p)).

(** ** Types without a statement *)

(** funcBody = None: NULL, a SEQUENCE none of whose components has a statement,
    and a SEQUENCE OF of fixed size below 64K of such a type (DAstUPer.fs:596,
    690, 815). A reference always has a call. *)
Fixpoint silent (t : ty) : bool :=
  match t with
  | TNull => true
  | TSeqOf t min max => (min =? max) && (max <? 65536) && silent t
  | TSeq fs => silent_fields fs
  | _ => false
  end
with silent_fields (fs : fields) : bool :=
  match fs with
  | FNil => true
  | FCons Mandatory t fs => silent t && silent_fields fs
  | FCons _ _ _ => false
  end.

(** ** SEQUENCE: presence bits, uper_c.stg:390-408, DAstUPer.fs:710-735 *)
Fixpoint has_presence (fs : fields) : bool :=
  match fs with
  | FNil => false
  | FCons Mandatory _ fs => has_presence fs
  | FCons _ _ _ => true
  end.
(** Statements are chained by JoinItems2: the first runs, each next one only if
    ret is TRUE. *)
Fixpoint enc_presence (c : cfg) (fs : fields) (l : list (bool * option value)) (r : bool) : M bool :=
  match fs, l with
  | FNil, [] => ret r
  | FCons o _ fs, (e, _) :: l =>
      match o with
      | Mandatory => enc_presence c fs l r
      | Optional | Default _ =>
          BitStream_AppendBit c e ;;; if r then enc_presence c fs l r else ret r
      | AlwaysAbsent => BitStream_AppendBit c false ;;; if r then enc_presence c fs l r else ret r
      | AlwaysPresent => BitStream_AppendBit c true ;;; if r then enc_presence c fs l r else ret r
      end
  | _, _ => ub
  end.
(** The exist flags of all components; [true] for mandatory ones. *)
Fixpoint dec_presence (fs : fields) : M (option (list bool)) :=
  match fs with
  | FNil => ret (Some [])
  | FCons Mandatory _ fs => let? es := dec_presence fs in ret (Some (true :: es))
  | FCons _ _ fs =>
      let* b := BitStream_ReadBit in
      if fst b then let? es := dec_presence fs in ret (Some (snd b :: es)) else ret None
  end.

(** Run [m] on another stream. *)
Definition run_on {A} (s : bstream) (m : M A) : M (A * bstream) := lift (m s).

(** Temporary stream of the CONTAINING templates, uper_c.stg:858-905. static, hence
    zero before the first call; BitStream_Init clears it anyway. *)
Definition temp_stream (req : Z) : bstream := mkbs (repeat 0 (Z.to_nat req)) req 0 0.

(** ** Encoders *)
Fixpoint enc (c : cfg) (t : ty) (r : bool) (v : value) {struct t} : M bool :=
  match t, v with
  | TBool, VBool b => BitStream_AppendBit c b ;;; ret r
  | TNull, VNull => ret r
  | TInt i p _, VInt z => int_enc c i p z ;;; ret r
  | TEnum items eff, VEnum z => enum_enc c items eff r z
  | TOid false, VOid l => ObjectIdentifier_uper_encode c (Z.of_nat (length l)) l ;;; ret r
  | TOid true, VOid l => RelativeOID_uper_encode c (Z.of_nat (length l)) l ;;; ret r
  | TReal f, VReal x => BitStream_EncodeReal c (if f then float_to_double x else x) ;;; ret r   (* uper_c.stg:258 *)
  | TStr a min max, VStr l => sized_enc c (char_enc c a) (l ++ [0]) (strlen l) min max r
  | TOct min max, VOct l => octet_enc c min max l r
  | TBit min max, VBit l => bit_enc c min max l r
  | TSeqOf t min max, VSeqOf l => sized_enc c (enc c t) l (Z.of_nat (length l)) min max r
  | TSeq fs, VSeq l =>
      if has_presence fs then
        let* r' := enc_presence c fs l r in
        if r' then enc_fields c fs l r' else ret r'
      else enc_fields c fs l r
  | TChoice cs, VChoice i v =>
      (* choice_encode, uper_c.stg:345-366 *)
      if (i <? alts_len cs)%nat then
        BitStream_EncodeConstraintWholeNumber c (Z.of_nat i) 0 (Z.of_nat (alts_len cs) - 1) ;;;
        enc_alt c cs i r v
      else ret false
  | TRef _ t, v => enc c t true v   (* call_base_type_func_encode, uper_c.stg:7 *)
  | TCont bits min max req t, v =>
      let* p := run_on (temp_stream req) (enc c t true v) in
      if fst p then
        let s := snd p in
        if bits then
          BitStream_EncodeBitString c (buf s) (curByte s * 8 + curBit s) min max
        else
          BitStream_EncodeOctetString c (buf s)
            (if curBit s =? 0 then curByte s else curByte s + 1) min max
      else ret false
  | _, _ => ub
  end
(** sequence_mandatory_child, sequence_optional_child, uper_c.stg:411-445;
    DAstUPer.fs:764-790 *)
with enc_fields (c : cfg) (fs : fields) (l : list (bool * option value)) (r : bool) {struct fs} : M bool :=
  match fs, l with
  | FNil, [] => ret r
  | FCons o t fs, (e, ov) :: l =>
      if silent t then enc_fields c fs l r
      else
        match o with
        | AlwaysAbsent => enc_fields c fs l r
        | Mandatory | AlwaysPresent =>
            match ov with
            | Some v => let* r' := enc c t r v in if r' then enc_fields c fs l r' else ret r'
            | None => ub
            end
        | Optional | Default _ =>
            if e then
              match ov with
              | Some v => let* r' := enc c t r v in if r' then enc_fields c fs l r' else ret r'
              | None => ub
              end
            else if r then enc_fields c fs l r else ret r
        end
  | _, _ => ub
  end
with enc_alt (c : cfg) (cs : alts) (i : nat) (r : bool) (v : value) {struct cs} : M bool :=
  match cs, i with
  | ANil, _ => ub
  | ACons t _, O => enc c t r v
  | ACons _ cs, S i => enc_alt c cs i r v
  end.

(** ** Decoders *)
Fixpoint dec (c : cfg) (t : ty) (r : bool) {struct t} : M (option value) :=
  match t with
  | TBool => let* b := BitStream_ReadBit in ret (if fst b then Some (VBool (snd b)) else None)
  | TNull => ret (if r then Some VNull else None)
  | TInt i p w => let? z := int_dec c i p w in ret (Some (VInt z))
  | TEnum items eff => enum_dec c items eff
  | TOid rel =>
      let? p := (if rel then RelativeOID_uper_decode c else ObjectIdentifier_uper_decode c) in
      ret (Some (VOid (firstn (Z.to_nat (fst p)) (snd p))))
  | TReal f =>   (* uper_c.stg:260, DAstUPer.fs:240-259 *)
      let? x := (if f then BitStream_DecodeReal_fp32 c else BitStream_DecodeReal c) in ret (Some (VReal x))
  | TStr a min max => let? l := sized_dec c (char_dec c a) 0 min max r in ret (Some (VStr l))
  | TOct min max => let? l := octet_dec c min max r in ret (Some (VOct l))
  | TBit min max => let? l := bit_dec c min max r in ret (Some (VBit l))
  | TSeqOf t min max => let? l := sized_dec c (dec c t) VJunk min max r in ret (Some (VSeqOf l))
  | TSeq fs =>
      if has_presence fs then
        let? es := dec_presence fs in
        let? l := dec_fields c fs es true in
        ret (Some (VSeq l))
      else
        let? l := dec_fields c fs (repeat true (fields_len fs)) r in
        ret (Some (VSeq l))
  | TChoice cs =>
      (* choice_decode, uper_c.stg:368-381 *)
      let? i := BitStream_DecodeConstraintWholeNumber c 0 (Z.of_nat (alts_len cs) - 1) in
      if (0 <=? i) && (i <? Z.of_nat (alts_len cs)) then
        let? v := dec_alt c cs (Z.to_nat i) true in
        ret (Some (VChoice (Z.to_nat i) v))
      else ret None
  | TRef ok t =>
      (* EmitTypeAssignment_decode, uper_c.stg:75-98 *)
      let? v := dec c t true in
      ret (if ok v then Some v else None)
  | TCont bits min max req t =>
      let arr := repeat 0 (Z.to_nat req) in
      let? p := (if bits then BitStream_DecodeBitString c arr min max
                 else BitStream_DecodeOctetString c arr min max) in
      let* q := run_on (mkbs (snd p) req 0 0) (dec c t true) in
      ret (fst q)
  end
with dec_fields (c : cfg) (fs : fields) (es : list bool) (r : bool) {struct fs}
  : M (option (list (bool * option value))) :=
  match fs, es with
  | FNil, [] => ret (if r then Some [] else None)
  | FCons o t fs, e :: es =>
      if silent t then
        let? v := dec c t true in
        let? l := dec_fields c fs es r in
        ret (Some ((e, if e then Some v else None) :: l))
      else if e then
        let? v := dec c t r in
        let? l := dec_fields c fs es true in
        ret (Some ((true, Some v) :: l))
      else if r then
        let? l := dec_fields c fs es true in
        ret (Some ((false, match o with Default d => Some d | _ => None end) :: l))
      else ret None
  | _, _ => ub
  end
with dec_alt (c : cfg) (cs : alts) (i : nat) (r : bool) {struct cs} : M (option value) :=
  match cs, i with
  | ANil, _ => ub
  | ACons t _, O => dec c t r
  | ACons _ cs, S i => dec_alt c cs i r
  end.
