(** acnMaxSizeInBits and acnMinSizeInBits, FrontEndAst/AcnEncodingClasses.fs and
    AcnCreateFromAntlr.fs, for the types of AcnGen.v; integers of 8 octets. *)
From Verif Require Import Base Bits RealSpec UperTypes UperSizes UperClasses UperSpec UperWf AcnGen.

(** GetIntEncodingClass, AcnEncodingClasses.fs:34-124: maxDigitsInInteger is 20, or
    19 for signed integers. The classes with a length field ([KPosVar], [KTwosVar],
    [KBcdVar], [KTextVar]) are never produced there; the sizes given to them are
    ours. *)
Definition k_max (k : icodec) : Z :=
  match k with
  | KUper a b => gnb (b - a)
  | KPos n | KTwos n => n
  | KPos8 | KTwos8 => 8
  | KPosBE k | KPosLE k | KTwosBE k | KTwosLE k => 8 * k
  | KPosVar | KTwosVar => 8 + 64
  | KBcd n => 4 * n
  | KBcdVar => 8 + 4 * 20
  | KBcdNull => 4 + 20 * 4
  | KText n | KUText n => 8 * n
  | KTextVar => 8 + 8 + 20 * 8
  | KTextNull p => 8 * Z.of_nat (length p) + 8 + 8 + 19 * 8
  | KUTextNull p => 8 * Z.of_nat (length p) + 20 * 8
  end.
Definition k_min (k : icodec) : Z :=
  match k with
  | KPosVar | KTwosVar | KBcdVar | KTextVar => 8
  | KBcdNull => 4
  | KTextNull p | KUTextNull p => 8 * Z.of_nat (length p)
  | _ => k_max k
  end.

(** GetStringEncodingClass, AcnEncodingClasses.fs:176-205: charSizeInBits, what is
    added to the characters *)
Definition str_char (k : str_kind) : Z :=
  match k with
  | SIndexExt set _ => gnb (Z.of_nat (length set) - 1)
  | SIA5Ext _ => 7
  | _ => 8
  end.
Definition str_extra (k : str_kind) (min max : Z) : Z :=
  match k with
  | SAscii => gnb (max - min)
  | SNull p => 8 * Z.of_nat (length p)
  | _ => 0
  end.

(** GetOctetBitSeqofEncodingClass, AcnEncodingClasses.fs:218-236. The minimum counts
    the maximal size of an item when there is no size property. *)
Definition size_extra (sz : size_kind) (min max : Z) : Z :=
  match sz with
  | SzFixed => 0
  | SzEmbedded => gnb (max - min)
  | SzExt _ _ _ => 0
  | SzNull _ n => n
  end.
Definition item_min (sz : size_kind) (lo hi : Z) : Z :=
  match sz with SzFixed | SzEmbedded => hi | _ => lo end.

(** getAlignmentSize, AcnEncodingClasses.fs:11-16 *)
Definition align_size (n : Z) : Z := if n =? 8 then 7 else if n =? 16 then 15 else 31.

(** acnBitMaskSize, AcnCreateFromAntlr.fs:1346-1352 *)
Fixpoint amask (fs : afields) : Z :=
  match fs with
  | GNil => 0
  | GAsn (OOptional PBit _) _ fs => 1 + amask fs
  | GAsn _ _ fs | GAcn _ _ fs | GPad _ fs => amask fs
  end.
Definition choice_index (k : choice_kind) (n : nat) : Z :=
  match k with CIndex => gnb (Z.of_nat n - 1) | _ => 0 end.

Fixpoint amax (t : aty) : Z :=
  match t with
  | AUper t => umax t
  | ABool _ _ _ n => n
  | ANull None _ => 0
  | ANull (Some (_, n)) _ => n
  | AInt k _ _ | AEnum _ k _ | AEnumEff _ _ _ _ k _ => k_max k
  | AReal _ d64 _ => if d64 then 64 else 32
  | AStr k min max => max * str_char k + str_extra k min max
  | AOct sz min max => max * 8 + size_extra sz min max
  | ABit sz min max => max * 1 + size_extra sz min max
  | ASeqOf t sz min max => max * amax t + size_extra sz min max
  | ASeq fs => amask fs + amax_fields fs
  | AChoice k cs => choice_index k (aalts_len cs) + amax_alts cs
  | ARef _ t => amax t
  | AAlign n t => amax t + align_size n
  end
with amax_fields (fs : afields) : Z :=
  match fs with
  | GNil => 0
  | GAsn OAbsent _ fs => amax_fields fs
  | GAsn _ t fs | GAcn _ t fs | GPad t fs => amax t + amax_fields fs
  end
with amax_alts (cs : aalts) : Z :=
  match cs with
  | HNil => 0
  | HCons t HNil => amax t
  | HCons t cs => Z.max (amax t) (amax_alts cs)
  end.

Fixpoint amin (t : aty) : Z :=
  match t with
  | AUper t => umin t
  | ABool _ _ _ n => n
  | ANull None _ => 0
  | ANull (Some (_, n)) _ => n
  | AInt k _ _ | AEnum _ k _ | AEnumEff _ _ _ _ k _ => k_min k
  | AReal _ d64 _ => if d64 then 64 else 32
  | AStr k min max => min * str_char k + str_extra k min max
  | AOct sz min max => min * 8 + size_extra sz min max
  | ABit sz min max => min * 1 + size_extra sz min max
  | ASeqOf t sz min max => min * item_min sz (amin t) (amax t) + size_extra sz min max
  | ASeq fs => amask fs + amin_fields fs
  | AChoice k cs => choice_index k (aalts_len cs) + amin_alts cs
  | ARef _ t => amin t
  | AAlign _ t => amin t
  end
with amin_fields (fs : afields) : Z :=
  match fs with
  | GNil => 0
  | GAsn OAbsent _ fs | GAsn (OOptional _ _) _ fs => amin_fields fs
  | GAsn _ t fs | GAcn _ t fs | GPad t fs => amin t + amin_fields fs
  end
with amin_alts (cs : aalts) : Z :=
  match cs with
  | HNil => 0
  | HCons t HNil => amin t
  | HCons t cs => Z.min (amin t) (amin_alts cs)
  end.

(** REQUIRED_BYTES_FOR_ACN_ENCODING *)
Definition required_acn (t : aty) : Z := (amax t + 7) / 8.

(** The bounds of CONTAINING types used through uPER are the computed ones. *)
Fixpoint acomputed (t : aty) : Prop :=
  match t with
  | AUper t => computed t
  | ASeqOf t _ _ _ | ARef _ t | AAlign _ t => acomputed t
  | ASeq fs => acomputed_fields fs
  | AChoice _ cs => acomputed_alts cs
  | _ => True
  end
with acomputed_fields (fs : afields) : Prop :=
  match fs with
  | GNil => True
  | GAsn _ t fs | GAcn _ t fs | GPad t fs => acomputed t /\ acomputed_fields fs
  end
with acomputed_alts (cs : aalts) : Prop :=
  match cs with HNil => True | HCons t cs => acomputed t /\ acomputed_alts cs end.

(** Where the minimum is right: items of lists without size property have one size. *)
Fixpoint amin_exact (t : aty) : Prop :=
  match t with
  | AUper t => min_exact t = true
  | ASeqOf t sz _ _ => amin_exact t /\ match sz with SzFixed | SzEmbedded => amin t = amax t | _ => True end
  | ARef _ t | AAlign _ t => amin_exact t
  | ASeq fs => amin_exact_fields fs
  | AChoice _ cs => amin_exact_alts cs
  | _ => True
  end
with amin_exact_fields (fs : afields) : Prop :=
  match fs with
  | GNil => True
  | GAsn _ t fs | GAcn _ t fs | GPad t fs => amin_exact t /\ amin_exact_fields fs
  end
with amin_exact_alts (cs : aalts) : Prop :=
  match cs with HNil => True | HCons t cs => amin_exact t /\ amin_exact_alts cs end.
