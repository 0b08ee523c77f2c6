(** C60: the ACN encoding the compiler accepts for an INTEGER holds its values.
    Statements only. *)
From Verif Require Import Base Bits BitStream Ints StrSpec Contracts UperTypes UperSpec UperWf Constraints
  Acn AcnSpec AcnGen AcnGenSpec AcnEncClass.
From Verif Require AcnEncClassProofs Properties19Proofs.

(** A digit of decimal text. *)
Definition is_digit (ch : Z) : Prop := 48 <= ch <= 57.
(** What the checks of the compiler leave open, see the refutations: one negative
    value of fixed size text, and a terminator that looks like a digit. *)
Definition open_case (k : icodec) (z : Z) : Prop :=
  match k with
  | KText n => z <> - 10 ^ (n - 1)
  | KTextNull p | KUTextNull p => Forall is_byte p /\ (1 <= length p <= 10)%nat /\ ~ is_digit (hd 0 p)
  | _ => True
  end.
(** The generated code writes a bit string that the specification ([int_encodes],
    AcnGenSpec.v) gives to z, of a length within the computed sizes even after [al - 1]
    bits of alignment, and reads z back from it. *)
Definition carries (c : cfg) (k : icodec) (w al mn mx z : Z) : Prop :=
  wf_codec k w /\ exists bs, int_encodes c k w z bs /\ writes (k_enc c k z) tt bs /\ reads (k_dec c k w) (Some z) bs /\
    mn <= blen bs /\ blen bs + (al - 1) <= mx.
(** Binary and packed decimal encodings of fixed size. *)
Definition fixed_coding (k : icodec) : Prop :=
  match k with KText _ | KTextNull _ | KUText _ | KUTextNull _ | KBcdNull => False | _ => True end.

(** An INTEGER with range [r] whose C type is that of the range [rt]. [iside]: C
    arithmetic (C16). *)
Theorem C60_integer : forall c slim al p r rt umin umax k kk mn mx uns w z,
  mergeInteger slim 8 al p r rt umin umax = Some (k, mn, mx, (uns, w)) -> mappingFunction p = false -> class_codec k = Some kk ->
  (forall x, in_range r x -> in_range rt x) -> in_range r z -> in_class uns w z -> signed_coding kk = negb uns ->
  iside c kk z -> open_case kk z -> carries c kk w al mn mx z.
Proof. exact AcnEncClassProofs.integer. Qed.
Definition bin (e : enc_prop) (n : Z) : int_props := mkprops (Some e) (Some (Fixed n)) None false.
Example C60_integer_example : let r := Concrete (-1000) 1000 in
  mergeInteger true 8 16 (bin TwosComplement 11) r r 11 11 = Some (TwosComplement_ConstSize 11, 11, 26, (false, 16)) /\
  in_range r (-1000) /\ in_class false 16 (-1000) /\ iside gcc (KTwos 11) (-1000) /\ open_case (KTwos 11) (-1000) /\
  mergeInteger true 8 16 (bin TwosComplement 10) r r 11 11 = None.
Proof.
  cbv zeta. split; [reflexivity|]. split; [cbn; lia|]. split; [cbn; lia|]. split; [|split; [exact I|reflexivity]].
  split; [left; unfold is_s64, two63; lia|left; reflexivity].
Qed.

(** The item of an ENUMERATED, values [lo] to [hi]. *)
Theorem C60_enumerated : forall c slim al p vals ev ub vb k kk mn mx z,
  mergeEnumerated 8 al p vals ev ub vb = Some (k, mn, mx) -> class_codec k = Some kk -> In z vals ->
  forall lo hi uns w, (forall x, In x vals -> lo <= x <= hi) -> In lo vals -> In hi vals ->
  int_class slim 64 (Concrete lo hi) = (uns, w) -> in_class uns w z -> signed_coding kk = negb uns ->
  iside c kk z -> open_case kk z -> carries c kk w al mn mx z.
Proof. exact Properties19Proofs.enumerated. Qed.
Example C60_enumerated_example :
  mergeEnumerated 8 1 (bin PosInt 8) [200; 17; 3] true 2 8 = Some (PositiveInteger_ConstSize_8, 8, 8) /\
  mergeEnumerated 8 1 (bin PosInt 8) [256; 17; 3] true 2 8 = None /\
  mergeEnumerated 8 1 (bin PosInt 3) [0; 1; 2] false 2 8 = Some (PositiveInteger_ConstSize 3, 3, 3).
Proof. repeat split. Qed.

(** A size determinant INTEGER inserted by ACN, for a type of [lo] to [hi] elements. *)
Theorem C60_size : forall c al p lo hi k mn mx z,
  size_field 8 al p lo hi = Some (k, mn, mx) -> mappingFunction p = false -> lo <= z <= hi -> 0 <= z < 2 ^ 63 ->
  exists kk, class_codec k = Some kk /\ (iside c kk z -> open_case kk z -> carries c kk 64 al mn mx z).
Proof. exact Properties19Proofs.size_field_carries. Qed.
Example C60_size_example : size_field 8 8 (bin IntAscii 32) 0 999 = Some (ASCII_ConstSize 32, 32, 39) /\
  size_field 8 8 (bin IntAscii 32) 0 1000 = None /\ size_field 8 1 (bin BCD 12) 0 999 = Some (BCD_ConstSize 12, 12, 12).
Proof. repeat split. Qed.

(** Binary and packed decimal: the check rejects nothing that fits. *)
Theorem C60_exact : forall k kk lo hi, class_codec k = Some kk -> fixed_coding kk -> lo <= hi < 2 ^ 64 ->
  (checkIntHasEnoughSpace k false lo hi = true <-> forall z, lo <= z <= hi -> exists bs, icode kk z bs).
Proof. exact Properties19Proofs.exact_check. Qed.
Example C60_exact_example : checkIntHasEnoughSpace (BCD_ConstSize 8) false 0 99 = true /\
  checkIntHasEnoughSpace (BCD_ConstSize 8) false 0 100 = false.
Proof. split; reflexivity. Qed.

(** What the ACN properties of an INTEGER say about the bits (user manual, chapter ACN):
    encoding, size, endianness and termination pattern; [uns]: the type has no negative values. *)
Definition little (p : int_props) : bool := match endiannessProp p with Some LittleEndianness => true | _ => false end.
Definition declared (p : int_props) (uns : bool) (z : Z) (bs : list bool) : Prop :=
  match encodingProp p, sizeProp p with
  | Some PosInt, Some (Fixed n) => 0 <= z < 2 ^ n /\
      bs = if little p then bits_of_bytes (le_octets (Z.to_nat (n / 8)) z) else Zbits (Z.to_nat n) z
  | Some TwosComplement, Some (Fixed n) => - 2 ^ (n - 1) <= z < 2 ^ (n - 1) /\
      bs = if little p then bits_of_bytes (le_octets (Z.to_nat (n / 8)) z) else Zbits (Z.to_nat n) z
  | Some BCD, Some (Fixed n) => 0 <= z < 10 ^ (n / 4) /\ bs = nibbles (digits (Z.to_nat (n / 4)) z)
  | Some BCD, Some (IntNullTerminated _) => 0 <= z /\ exists n, least_digits z n /\ bs = nibbles (digits n z) ++ Zbits 4 15
  | Some IntAscii, Some (Fixed n) =>
      if uns then 0 <= z < 10 ^ (n / 8) /\ bs = bits_of_bytes (digit_chars (digits (Z.to_nat (n / 8)) z))
      else Z.abs z < 10 ^ (n / 8 - 1) /\
        bs = bits_of_bytes (sign_char z :: digit_chars (digits (Z.to_nat (n / 8 - 1)) (Z.abs z)))
  | Some IntAscii, Some (IntNullTerminated t) =>
      exists n, text_digits (Z.abs z) n /\ (uns = true -> 0 <= z) /\
        bs = bits_of_bytes ((if uns then [] else [sign_char z]) ++ digit_chars (digits n (Z.abs z)) ++ t)
  | _, _ => False
  end.
(** The encoding class writes what the properties say. *)
Theorem C60_declared : forall isz al p umin umax uns k kk mn mx z bs,
  GetIntEncodingClass isz al p umin umax uns = Some (k, mn, mx) -> class_codec k = Some kk -> icode kk z bs -> declared p uns z bs.
Proof. exact Properties19Proofs.class_declared. Qed.
Example C60_declared_example : let p := mkprops (Some TwosComplement) (Some (Fixed 16)) (Some LittleEndianness) false in
  GetIntEncodingClass 8 1 p 5 5 false = Some (TwosComplement_ConstSize_little_endian_16, 16, 16) /\
  icode (KTwosLE 2) (-2) (bits_of_bytes [254; 255]).
Proof. cbv zeta. split; [reflexivity|]. cbn [icode]. split; [lia|reflexivity]. Qed.
(** An accepted termination pattern has at most 10 octets, what the run-time functions can hold. *)
Theorem C60_pattern : forall pat p, null_terminated pat = Some (IntNullTerminated p) ->
  (length p <= 10)%nat /\ match pat with None => p = [0] | Some (ba, bits) => p = ba /\ (8 | bits) end.
Proof. exact Properties19Proofs.pattern. Qed.
Example C60_pattern_example : null_terminated (Some ([59; 10], 16)) = Some (IntNullTerminated [59; 10]) /\
  null_terminated (Some ([59; 10], 12)) = None /\ null_terminated (Some (repeat 1 11, 88)) = None.
Proof. repeat split. Qed.

(** ** Refutations *)
(** Fixed size text: the lower limit is off by one. INTEGER (-10 .. 9) in two
    characters is accepted; -10 stops the program, or is decoded as 0 when assertions
    are off. *)
Theorem C60_text_refuted : let r := Concrete (-10) 9 in let off := mkcfg true true true in
  mergeInteger false 8 1 (bin IntAscii 16) r r 5 5 = Some (ASCII_ConstSize 16, 16, 16, (false, 64)) /\
  (forall bs, ~ icode (KText 2) (-10) bs) /\
  k_enc iso (KText 2) (-10) (mkbs [0; 0; 0] 3 0 0) = Abort /\
  exists s, k_enc off (KText 2) (-10) (mkbs [0; 0; 0] 3 0 0) = Ok (tt, s) /\
    exists s', k_dec off (KText 2) 64 (BitStream_AttachBuffer (buf s) 2) = Ok (Some 0, s').
Proof.
  cbv zeta. split; [reflexivity|]. split; [|split; [reflexivity|]].
  - intros bs (_ & H & _). vm_compute in H. discriminate.
  - eexists. split; [vm_compute; reflexivity|]. eexists. vm_compute. reflexivity.
Qed.
(** Unsigned fixed size text is checked as if a sign were written: INTEGER (0 .. 99) in
    two characters is rejected, although every value fits. *)
Theorem C60_unsigned_text_refuted : let r := Concrete 0 99 in
  mergeInteger false 8 1 (bin IntAscii 16) r r 7 7 = None /\
  (exists mn mx, GetIntEncodingClass 8 1 (bin IntAscii 16) 7 7 true = Some (ASCII_UINT_ConstSize 16, mn, mx)) /\
  class_codec (ASCII_UINT_ConstSize 16) = Some (KUText 2) /\
  forall z, in_range r z -> exists bs, icode (KUText 2) z bs.
Proof.
  cbv zeta. split; [reflexivity|]. split; [eexists; eexists; reflexivity|]. split; [reflexivity|].
  intros z H. cbn [in_range] in H. eexists. cbn [icode]. change (10 ^ 2) with 100. split; [lia|]. split; [lia|reflexivity].
Qed.
(** A termination pattern that is a digit is accepted: 100 with pattern '30'H comes
    back as 1. An empty pattern is accepted too: 7 comes back as 0. *)
Theorem C60_terminator_refuted : let p q := mkprops (Some IntAscii) q None false in let r := Concrete 0 100 in
  null_terminated (Some ([48], 8)) = Some (IntNullTerminated [48]) /\
  null_terminated (Some ([], 0)) = Some (IntNullTerminated []) /\
  mergeInteger false 8 1 (p (Some (IntNullTerminated [48]))) r r 7 7 = Some (ASCII_UINT_VarSize_NullTerminated [48], 8, 168, (true, 64)) /\
  (exists s, k_enc iso (KUTextNull [48]) 100 (mkbs (repeat 0 9) 9 0 0) = Ok (tt, s) /\
    exists s', k_dec iso (KUTextNull [48]) 64 (BitStream_AttachBuffer (buf s) 9) = Ok (Some 1, s')) /\
  mergeInteger false 8 1 (p (Some (IntNullTerminated []))) r r 7 7 = Some (ASCII_UINT_VarSize_NullTerminated [], 0, 160, (true, 64)) /\
  (exists s, k_enc iso (KUTextNull []) 7 (mkbs (repeat 0 9) 9 0 0) = Ok (tt, s) /\
    exists s', k_dec iso (KUTextNull []) 64 (BitStream_AttachBuffer (buf s) 9) = Ok (Some 0, s')).
Proof.
  cbv zeta. repeat (split; [reflexivity|]). split; [|split; [reflexivity|]].
  all: eexists; split; [vm_compute; reflexivity|]; eexists; vm_compute; reflexivity.
Qed.
(** Packed decimal up to a terminator is accepted for negative numbers, which it cannot
    represent; the functions take an unsigned variable, the generated one is signed. *)
Theorem C60_bcd_refuted : let r := Concrete (-5) 5 in
  mergeInteger false 8 1 (mkprops (Some BCD) (Some (IntNullTerminated [0])) None false) r r 4 4 =
    Some (BCD_VarSize_NullTerminated [0], 4, 80, (false, 64)) /\
  (forall bs, ~ icode KBcdNull (-5) bs) /\ signed_coding KBcdNull <> negb false.
Proof.
  cbv zeta. split; [reflexivity|]. split; [|discriminate]. intros bs ((H & _) & _). lia.
Qed.
(** A size determinant of a type with a range but without ACN properties is not
    checked at all: MyLen ::= INTEGER (0 .. 7) is accepted as size of 100 elements, and
    the encoder stops the program. *)
Theorem C60_size_type_refuted : let none := mkprops None None None false in
  size_field_ref false 8 1 none (Concrete 0 7) 3 3 0 100 = Some (Integer_uPER, 3, 3, (true, 64)) /\
  k_enc iso (KUper 0 7) 100 (mkbs (repeat 0 9) 9 0 0) = Abort.
Proof. split; reflexivity. Qed.
(** With ACN properties the range of the type is not checked, so with -slim the C
    variable is too small; and its sign can differ from that of the encoding. *)
Theorem C60_size_width_refuted :
  size_field_ref true 8 1 (bin PosInt 16) (Concrete 0 7) 3 3 0 300 = Some (PositiveInteger_ConstSize_big_endian_16, 16, 16, (true, 8)) /\
  ~ in_class true 8 300 /\
  size_field_ref true 8 1 (bin TwosComplement 16) (Concrete 0 7) 3 3 0 7 = Some (TwosComplement_ConstSize_big_endian_16, 16, 16, (true, 8)) /\
  signed_coding (KTwosBE 2) <> negb true.
Proof. split; [reflexivity|]. split; [cbn; lia|]. split; [reflexivity|discriminate]. Qed.
(** encode-values with a negative value and no other property: the uPER body for
    non-negative integers is used with the limits converted to unsigned (AcnEnum.fs:57-68).
    ENUMERATED {a(-5), b(3)}: neither encoder nor decoder gets past its assertions; with
    assertions off no bit string is accepted. *)
Theorem C60_enum_refuted : let none := mkprops None None None false in let off := mkcfg true true true in
  mergeEnumerated 8 1 none [-5; 3] true 1 4 = Some (Integer_uPER, 4, 4) /\
  int_class false 64 (Concrete (-5) 3) = (false, 64) /\
  (forall s, BitStream_EncodeConstraintPosWholeNumber iso 3 (u64 (-5)) 3 s = Abort) /\
  (forall s, BitStream_DecodeConstraintPosWholeNumber off (u64 (-5)) 3 s = Ok (None, s)).
Proof. cbv zeta. split; [reflexivity|]. split; [reflexivity|]. split; intros s; reflexivity. Qed.
(** Words of 4 octets: sizes above 32 bits are errors, except 64. *)
Theorem C60_word_refuted : GetIntEncodingClass 4 1 (bin PosInt 33) 0 0 true = None /\
  GetIntEncodingClass 4 1 (bin PosInt 64) 0 0 true = Some (PositiveInteger_ConstSize_big_endian_64, 64, 64).
Proof. split; reflexivity. Qed.

(** * Assumptions of all theorems above *)
Definition theorems19 := (
  @C60_integer, @C60_enumerated, @C60_size, @C60_exact, @C60_declared, @C60_pattern, @C60_text_refuted,
  @C60_unsigned_text_refuted, @C60_terminator_refuted, @C60_bcd_refuted, @C60_size_type_refuted,
  @C60_size_width_refuted, @C60_enum_refuted, @C60_word_refuted).
Print Assumptions theorems19.
