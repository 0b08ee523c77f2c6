(** C01-C08, C13: bit stream and integer codecs. Statements only; the proofs are
    in the *Proofs.v files. *)
From Verif Require Import Base Bits BitStream Ints Contracts History.
From Verif Require BitsProofs IntsProofs HistoryProofs RangeProofs SafeProofs TameProofs Properties1Proofs.

(** * C01 *)
(** Encode any history into a fresh buffer of n bytes; the n bytes are exactly
    the appended bits then zeros; memory after the buffer is untouched; the
    reported length is the bit count rounded up; the receiver, given just those
    bytes (followed by anything), reads back the same items and ends at the same
    position. *)
Theorem C01_history : forall c os mem n,
  Forall op_ok os -> Forall is_byte mem -> 0 <= n <= Z.of_nat (length mem) ->
  Z.of_nat (length (ops_bits os)) <= 8 * n ->
  exists s0 s1, BitStream_Init mem n = Ok s0 /\ run_ops c os s0 = Ok (tt, s1) /\
    let L := BitStream_GetLength s1 in
    L = (Z.of_nat (length (ops_bits os)) + 7) / 8 /\ L <= n /\
    bits_of_bytes (firstn (Z.to_nat n) (buf s1)) =
      ops_bits os ++ zeros (Z.to_nat (8 * n) - length (ops_bits os)) /\
    skipn (Z.to_nat n) (buf s1) = skipn (Z.to_nat n) mem /\
    forall tail, Forall is_byte tail ->
    exists s2,
      read_ops os (BitStream_AttachBuffer (firstn (Z.to_nat L) (buf s1) ++ tail) L)
        = Ok (Some (map op_item os), s2) /\
      pos s2 = pos s1.
Proof. exact Properties1Proofs.C01_history. Qed.

(** The same at any starting bit offset. *)
Theorem C01_append_any_offset : forall c os, Forall op_ok os -> writes (run_ops c os) tt (ops_bits os).
Proof. exact HistoryProofs.writes_run_ops. Qed.
Theorem C01_read_any_offset : forall os, Forall op_ok os ->
  reads (read_ops os) (Some (map op_item os)) (ops_bits os).
Proof. exact HistoryProofs.reads_read_ops. Qed.

Definition C01_ops : list op :=
  [OBit true; OPartial 5 3; OZeros 2; OByte 200; OBytes [1; 2; 255]; OOnes 9; OByteNeg 7; OBits [171; 205] 11; OPartialNeg 2 4].
Example C01_example : Forall op_ok C01_ops /\ Forall is_byte (repeat 99 12) /\
  0 <= 10 <= Z.of_nat (length (repeat 99 12)) /\ Z.of_nat (length (ops_bits C01_ops)) <= 8 * 10 /\
  match BitStream_Init (repeat 99 12) 10 with
  | Ok s0 => match run_ops iso C01_ops s0 with
             | Ok (tt, s1) => buf s1 = [211; 32; 4; 11; 255; 255; 241; 87; 180; 0; 99; 99]
                /\ read_ops C01_ops (BitStream_AttachBuffer (buf s1) 10) =
                   Ok (Some (map op_item C01_ops), mkbs (buf s1) 10 8 6)
             | _ => False end
  | _ => False end.
Proof.
  split; [repeat constructor; cbn; unfold is_byte; repeat constructor; discriminate|].
  split; [repeat constructor; unfold is_byte; discriminate|].
  split; [cbn; split; discriminate|]. split; [vm_compute; discriminate|]. vm_compute. auto.
Qed.

(** * C02 *)
Theorem C02_encode : forall c v min max, is_s64 min -> is_s64 max -> min <= v <= max ->
  sfits c (max - min) ->
  writes (BitStream_EncodeConstraintWholeNumber c v min max) tt (Zbits (crange min max) (v - min)).
Proof. exact IntsProofs.writes_EncodeConstraint. Qed.
Theorem C02_decode : forall c v min max, is_s64 min -> is_s64 max -> min <= v <= max ->
  sfits c (max - min) ->
  reads (BitStream_DecodeConstraintWholeNumber c min max) (Some v) (Zbits (crange min max) (v - min)).
Proof. exact IntsProofs.reads_DecodeConstraint. Qed.
(** The width is the least one, ceil(log2(max-min+1)). *)
Theorem C02_width : forall min max, min <= max ->
  max - min < 2 ^ Z.of_nat (crange min max) /\
  (forall n, 0 <= n -> max - min < 2 ^ n -> Z.of_nat (crange min max) <= n).
Proof. exact Properties1Proofs.C02_width. Qed.
Theorem C02_decode_narrow : forall c w v min max, w = 8 \/ w = 16 \/ w = 32 ->
  - 2 ^ (w - 1) <= min -> max < 2 ^ (w - 1) -> min <= v <= max ->
  reads (BitStream_DecodeConstraintWholeNumberIntN c w min max) (Some v) (Zbits (crange min max) (v - min)).
Proof. exact IntsProofs.reads_DecodeConstraintIntN. Qed.
Example C02_example : is_s64 (-5) /\ is_s64 1000 /\ -5 <= 77 <= 1000 /\ sfits iso (1000 - -5) /\
  crange (-5) 1000 = 10%nat /\
  match BitStream_EncodeConstraintWholeNumber iso 77 (-5) 1000 (mkbs [224; 0; 0] 3 0 3) with
  | Ok (_, s) => buf s = [226; 144; 0] /\ pos s = 13 /\
      match BitStream_DecodeConstraintWholeNumber iso (-5) 1000 (mkbs (buf s) 3 0 3) with
      | Ok (Some v, _) => v = 77 | _ => False end
  | _ => False end.
Proof. unfold sfits, is_s64, two63. repeat split; try (vm_compute; congruence). left. split; vm_compute; congruence. Qed.
(** When max - min does not fit in int64 and overflow does not wrap, both
    directions are undefined: INTEGER (-2^63 .. 2^63-1). *)
Theorem C02_refuted : exists v min max s, is_s64 min /\ is_s64 max /\ min <= v <= max /\
  wfs s /\ 8 * count s - pos s >= 64 /\
  BitStream_EncodeConstraintWholeNumber gcc v min max s = UB /\
  BitStream_DecodeConstraintWholeNumber gcc min max s = UB.
Proof. exact Properties1Proofs.C02_refuted. Qed.

(** * C03 *)
Theorem C03_encode : forall c v min max, 0 <= min -> max < two64 -> min <= v <= max ->
  writes (BitStream_EncodeConstraintPosWholeNumber c v min max) tt (Zbits (crange min max) (v - min)).
Proof. exact IntsProofs.writes_EncodeConstraintPos. Qed.
Theorem C03_decode : forall c v min max, 0 <= min -> max < two64 -> min <= v <= max ->
  reads (BitStream_DecodeConstraintPosWholeNumber c min max) (Some v) (Zbits (crange min max) (v - min)).
Proof. exact IntsProofs.reads_DecodeConstraintPos. Qed.
Theorem C03_decode_narrow : forall c w v min max, w = 8 \/ w = 16 \/ w = 32 ->
  0 <= min -> max < 2 ^ w -> min <= v <= max ->
  reads (BitStream_DecodeConstraintPosWholeNumberUIntN c w min max) (Some v) (Zbits (crange min max) (v - min)).
Proof. exact IntsProofs.reads_DecodeConstraintUIntN. Qed.
Example C03_example : 0 <= 3 /\ 2 ^ 64 - 1 < two64 /\ 3 <= 2 ^ 63 + 9 <= 2 ^ 64 - 1 /\ crange 3 (2 ^ 64 - 1) = 64%nat.
Proof. repeat split; try (vm_compute; congruence). Qed.

(** * C04 *)
Theorem C04_encode : forall c v min, is_s64 v -> is_s64 min -> min <= v -> sfits c (v - min) ->
  writes (BitStream_EncodeSemiConstraintWholeNumber c v min) tt (semi_bits (v - min)).
Proof. exact IntsProofs.writes_EncodeSemi. Qed.
Theorem C04_decode : forall c v min, is_s64 v -> is_s64 min -> min <= v ->
  (shl_wrap c = true /\ sfits c (v - min)) \/ is_s64 (v - min) ->
  reads (BitStream_DecodeSemiConstraintWholeNumber c min) (Some v) (semi_bits (v - min)).
Proof. exact IntsProofs.reads_DecodeSemi. Qed.
Theorem C04_encode_pos : forall c v min, is_u64 v -> is_u64 min -> min <= v ->
  writes (BitStream_EncodeSemiConstraintPosWholeNumber c v min) tt (semi_bits (v - min)).
Proof. exact IntsProofs.writes_EncodeSemiPos. Qed.
Theorem C04_decode_pos : forall c v min, is_u64 v -> is_u64 min -> min <= v ->
  reads (BitStream_DecodeSemiConstraintPosWholeNumber c min) (Some v) (semi_bits (v - min)).
Proof. exact IntsProofs.reads_DecodeSemiPos. Qed.
(** The octet count in [semi_bits] is the least possible. *)
Theorem C04_minimal : forall u, 0 <= u ->
  1 <= nbytes_u u /\ u < 256 ^ nbytes_u u /\ (forall L, 1 <= L -> u < 256 ^ L -> nbytes_u u <= L).
Proof. exact Properties1Proofs.nbytes_u_min. Qed.
Example C04_example : is_s64 70000 /\ is_s64 (-1) /\ -1 <= 70000 /\ is_s64 (70000 - -1) /\
  semi_bits (70000 - -1) = bits_of_bytes [3; 1; 17; 113].
Proof. unfold is_s64, two63. repeat split; try (vm_compute; congruence). Qed.

(** * C05 *)
Theorem C05_encode : forall c v, is_s64 v -> sfits c (- v) ->
  writes (BitStream_EncodeUnConstraintWholeNumber c v) tt (unc_bits v).
Proof. exact IntsProofs.writes_EncodeUnc. Qed.
Theorem C05_decode : forall c v, is_s64 v -> shl_wrap c = true \/ 0 <= v ->
  reads (BitStream_DecodeUnConstraintWholeNumber c) (Some v) (unc_bits v).
Proof. exact IntsProofs.reads_DecodeUnc. Qed.
Theorem C05_minimal : forall v,
  1 <= nbytes_s v /\ - 2 ^ (8 * nbytes_s v - 1) <= v < 2 ^ (8 * nbytes_s v - 1) /\
  (forall L, 1 <= L -> - 2 ^ (8 * L - 1) <= v < 2 ^ (8 * L - 1) -> nbytes_s v <= L).
Proof. exact Properties1Proofs.nbytes_s_min. Qed.
Example C05_example : is_s64 (-129) /\ sfits gcc (- -129) /\ shl_wrap gcc = true /\
  unc_bits (-129) = bits_of_bytes [2; 255; 127].
Proof. unfold sfits, is_s64, two63. repeat split; try (vm_compute; congruence). left. split; vm_compute; congruence. Qed.
(** Encoding INT64_MIN is undefined unless overflow wraps; decoding any
    negative number is undefined in strict ISO C (left shift of a negative
    value). *)
Theorem C05_encode_refuted : exists s, wfs s /\ 8 * count s - pos s >= 72 /\
  BitStream_EncodeUnConstraintWholeNumber gcc (- two63) s = UB.
Proof. exact Properties1Proofs.C05_encode_refuted. Qed.
Theorem C05_decode_refuted : exists s, wfs s /\ 8 * count s - pos s = 16 /\
  bits_of_bytes (buf s) = unc_bits (-1) ++ zeros 8 /\
  BitStream_DecodeUnConstraintWholeNumber iso s = UB.
Proof. exact Properties1Proofs.C05_decode_refuted. Qed.

(** * C06: from any memory and any cursor, even outside the buffer. *)
Theorem C06_signed : forall c min max s v s', is_s64 min -> is_s64 max -> Forall is_byte (buf s) ->
  BitStream_DecodeConstraintWholeNumber c min max s = Ok (Some v, s') -> min <= v <= max.
Proof. exact Properties1Proofs.C06_signed. Qed.
Theorem C06_unsigned : forall c min max s v s', is_u64 min -> is_u64 max -> Forall is_byte (buf s) ->
  BitStream_DecodeConstraintPosWholeNumber c min max s = Ok (Some v, s') -> min <= v <= max.
Proof. exact Properties1Proofs.C06_unsigned. Qed.
Theorem C06_signed_narrow : forall c w min max s v s', w = 8 \/ w = 16 \/ w = 32 ->
  - 2 ^ (w - 1) <= min -> max < 2 ^ (w - 1) -> is_s64 min -> is_s64 max -> Forall is_byte (buf s) ->
  BitStream_DecodeConstraintWholeNumberIntN c w min max s = Ok (Some v, s') -> min <= v <= max.
Proof. exact Properties1Proofs.C06_signed_narrow. Qed.
Theorem C06_unsigned_narrow : forall c w min max s v s', w = 8 \/ w = 16 \/ w = 32 ->
  is_u64 min -> max < 2 ^ w -> is_u64 max -> Forall is_byte (buf s) ->
  BitStream_DecodeConstraintPosWholeNumberUIntN c w min max s = Ok (Some v, s') -> min <= v <= max.
Proof. exact Properties1Proofs.C06_unsigned_narrow. Qed.
(** Both outcomes occur: bounds 0..5 use 3 bits; 101 is accepted, 110 rejected. *)
Example C06_example :
  (exists s', BitStream_DecodeConstraintWholeNumber iso 0 5 (mkbs [160] 1 0 0) = Ok (Some 5, s')) /\
  (exists s', BitStream_DecodeConstraintWholeNumber iso 0 5 (mkbs [192] 1 0 0) = Ok (None, s')).
Proof. split; eexists; vm_compute; reflexivity. Qed.

(** * C07: for any memory (no guard byte assumed), if the decoder returns. *)
Theorem C07_ReadBit : forall (B : Type) (f : bool -> B),
  tame (let* r := BitStream_ReadBit in ret (if fst r then Some (f (snd r)) else None)).
Proof. exact @TameProofs.tame_ReadBit. Qed.
Theorem C07_ReadByte : tame BitStream_ReadByte.
Proof. exact TameProofs.tame_ReadByte. Qed.
Theorem C07_ReadPartialByte : forall n, tame (BitStream_ReadPartialByte n).
Proof. exact TameProofs.tame_ReadPartialByte. Qed.
Theorem C07_DecodeOctetString_no_length : forall n, 0 <= n -> tame (BitStream_DecodeOctetString_no_length n).
Proof. exact TameProofs.tame_DecodeOctets. Qed.
Theorem C07_ReadBits : forall n, 0 <= n -> tame (BitStream_ReadBits n).
Proof. exact TameProofs.tame_ReadBits. Qed.
Theorem C07_DecodeConstraintWholeNumber : forall c min max, tame (BitStream_DecodeConstraintWholeNumber c min max).
Proof. exact TameProofs.tame_DecodeConstraint. Qed.
Theorem C07_DecodeConstraintPosWholeNumber : forall c min max, tame (BitStream_DecodeConstraintPosWholeNumber c min max).
Proof. exact TameProofs.tame_DecodeConstraintPos. Qed.
Theorem C07_DecodeConstraintWholeNumberIntN : forall c w min max, tame (BitStream_DecodeConstraintWholeNumberIntN c w min max).
Proof. exact TameProofs.tame_DecodeConstraintIntN. Qed.
Theorem C07_DecodeConstraintPosWholeNumberUIntN : forall c w min max, tame (BitStream_DecodeConstraintPosWholeNumberUIntN c w min max).
Proof. exact TameProofs.tame_DecodeConstraintUIntN. Qed.
Theorem C07_DecodeSemiConstraintWholeNumber : forall c min, tame (BitStream_DecodeSemiConstraintWholeNumber c min).
Proof. exact TameProofs.tame_DecodeSemi. Qed.
Theorem C07_DecodeSemiConstraintPosWholeNumber : forall c min, tame (BitStream_DecodeSemiConstraintPosWholeNumber c min).
Proof. exact TameProofs.tame_DecodeSemiPos. Qed.
Theorem C07_DecodeUnConstraintWholeNumber : forall c, tame (BitStream_DecodeUnConstraintWholeNumber c).
Proof. exact TameProofs.tame_DecodeUnc. Qed.
Example C07_example : inside (mkbs [8; 255; 3] 3 2 7) /\ inside (mkbs [] 0 0 0) /\
  (exists s', BitStream_ReadByte (mkbs [8; 255; 3] 3 0 7) = Ok (Some 127, s') /\ pos s' = 15).
Proof.
  split; [cbv; intuition discriminate|]. split; [cbv; intuition discriminate|].
  eexists; split; vm_compute; reflexivity.
Qed.

(** * C08 (and C07): [safe] says: on any memory with one readable byte after the
    declared data, no undefined behaviour, no failed assertion, termination,
    memory and size unchanged, cursor not moved backwards, and on success still
    inside the declared data. *)
Theorem C08_ReadBit : safe SafeProofs.read_bit (fun _ => True).
Proof. exact SafeProofs.safe_read_bit. Qed.
Theorem C08_ReadByte : safe BitStream_ReadByte is_byte.
Proof. exact SafeProofs.safe_ReadByte. Qed.
Theorem C08_ReadPartialByte : forall n, 1 <= n <= 8 ->
  safe (BitStream_ReadPartialByte n) (fun v => 0 <= v < 2 ^ n).
Proof. exact SafeProofs.safe_ReadPartialByte. Qed.
Theorem C08_ReadBits : forall n, 0 <= n ->
  safe (BitStream_ReadBits n) (fun d => Z.of_nat (length d) = (n + 7) / 8 /\ Forall is_byte d).
Proof. exact SafeProofs.safe_ReadBits. Qed.
Theorem C08_DecodeOctetString_no_length : forall n, 0 <= n ->
  safe (BitStream_DecodeOctetString_no_length n) (fun d => Z.of_nat (length d) = n /\ Forall is_byte d).
Proof. exact SafeProofs.safe_DecodeOctets. Qed.
Theorem C08_DecodeConstraintWholeNumber : forall c min max, is_s64 min -> is_s64 max -> min <= max ->
  sfits c (max - min) ->
  safe (BitStream_DecodeConstraintWholeNumber c min max) (fun v => min <= v <= max).
Proof. exact SafeProofs.safe_DecodeConstraint. Qed.
Theorem C08_DecodeConstraintPosWholeNumber : forall c min max, 0 <= min -> max < two64 -> min <= max ->
  safe (BitStream_DecodeConstraintPosWholeNumber c min max) (fun v => min <= v <= max).
Proof. exact SafeProofs.safe_DecodeConstraintPos. Qed.
Theorem C08_DecodeConstraintWholeNumberIntN : forall c w min max, w = 8 \/ w = 16 \/ w = 32 ->
  - 2 ^ (w - 1) <= min -> max < 2 ^ (w - 1) -> min <= max ->
  safe (BitStream_DecodeConstraintWholeNumberIntN c w min max) (fun v => min <= v <= max).
Proof. exact SafeProofs.safe_DecodeConstraintIntN. Qed.
Theorem C08_DecodeConstraintPosWholeNumberUIntN : forall c w min max, w = 8 \/ w = 16 \/ w = 32 ->
  0 <= min -> max < 2 ^ w -> min <= max ->
  safe (BitStream_DecodeConstraintPosWholeNumberUIntN c w min max) (fun v => min <= v <= max).
Proof. exact SafeProofs.safe_DecodeConstraintUIntN. Qed.
Theorem C08_DecodeSemiConstraintWholeNumber : forall c min, shl_wrap c = true -> ovf_wrap c = true -> is_s64 min ->
  safe (BitStream_DecodeSemiConstraintWholeNumber c min) is_s64.
Proof. exact SafeProofs.safe_DecodeSemi. Qed.
Theorem C08_DecodeSemiConstraintPosWholeNumber : forall c min,
  safe (BitStream_DecodeSemiConstraintPosWholeNumber c min) is_u64.
Proof. exact SafeProofs.safe_DecodeSemiPos. Qed.
Theorem C08_DecodeUnConstraintWholeNumber : forall c, shl_wrap c = true ->
  safe (BitStream_DecodeUnConstraintWholeNumber c) is_s64.
Proof. exact SafeProofs.safe_DecodeUnc. Qed.
Example C08_example : wfs (mkbs [8; 255; 3; 0] 3 0 5) /\ wfs (mkbs [0] 0 0 0).
Proof. split; (split; [repeat constructor; unfold is_byte; discriminate|]; cbv; intuition discriminate). Qed.
(** Without the guard byte the claim is false: reading a bit, a partial byte or
    an unconstrained integer at the end of exactly-sized data reads one byte
    past the buffer. [fits s]: memory is exactly the declared data and the
    cursor is inside it. *)
Theorem C08_ReadBit_refuted : exists s, fits s /\ BitStream_ReadBit s = UB.
Proof. exact Properties1Proofs.C08_ReadBit_refuted. Qed.
Theorem C08_ReadPartialByte_refuted : exists s, fits s /\ 0 < count s /\ BitStream_ReadPartialByte 3 s = UB.
Proof. exact Properties1Proofs.C08_ReadPartialByte_refuted. Qed.
Theorem C08_DecodeUnConstraint_refuted : exists s, fits s /\ count s = 1 /\ pos s = 0 /\
  BitStream_DecodeUnConstraintWholeNumber wrapv s = UB.
Proof. exact Properties1Proofs.C08_DecodeUnConstraint_refuted. Qed.
Theorem C08_DecodeConstraint_refuted : exists s, fits s /\ count s = 1 /\ pos s = 4 /\
  BitStream_DecodeConstraintWholeNumber wrapv 0 100 s = UB.
Proof. exact Properties1Proofs.C08_DecodeConstraint_refuted. Qed.

(** * C13 *)
Theorem C13_bits : forall v, is_u64 v -> exists n, GetNumberOfBitsForNonNegativeInteger v = Ok n /\
  0 <= n /\ v < 2 ^ n /\ (forall m, 0 <= m -> v < 2 ^ m -> n <= m).
Proof. exact Properties1Proofs.C13_bits. Qed.
Theorem C13_bytes_unsigned : forall v, is_u64 v -> let L := GetLengthInBytesOfUInt v in
  1 <= L /\ v < 256 ^ L /\ (forall m, 1 <= m -> v < 256 ^ m -> L <= m).
Proof. exact Properties1Proofs.C13_bytes_unsigned. Qed.
Theorem C13_bytes_signed : forall c v, is_s64 v -> sfits c (- v) ->
  exists L, GetLengthInBytesOfSInt c v = Ok L /\ 1 <= L /\ - 2 ^ (8 * L - 1) <= v < 2 ^ (8 * L - 1) /\
  (forall m, 1 <= m -> - 2 ^ (8 * m - 1) <= v < 2 ^ (8 * m - 1) -> L <= m).
Proof. exact Properties1Proofs.C13_bytes_signed. Qed.
Example C13_example : is_u64 (2 ^ 40 + 7) /\ GetNumberOfBitsForNonNegativeInteger (2 ^ 40 + 7) = Ok 41 /\
  GetLengthInBytesOfUInt (2 ^ 40 + 7) = 6 /\ is_s64 (-32769) /\ sfits iso (- -32769) /\
  GetLengthInBytesOfSInt iso (-32769) = Ok 3.
Proof. unfold sfits, is_u64, is_s64, two64, two63. repeat split; try (vm_compute; congruence). left. split; vm_compute; congruence. Qed.

(** * Assumptions of all theorems above *)
Definition theorems1 := (
  @C01_history, @C01_append_any_offset, @C01_read_any_offset, @C02_encode, @C02_decode, @C02_width,
  @C02_decode_narrow, @C02_refuted, @C03_encode, @C03_decode, @C03_decode_narrow, @C04_encode,
  @C04_decode, @C04_encode_pos, @C04_decode_pos, @C04_minimal, @C05_encode, @C05_decode, @C05_minimal,
  @C05_encode_refuted, @C05_decode_refuted, @C06_signed, @C06_unsigned, @C06_signed_narrow,
  @C06_unsigned_narrow, @C07_ReadBit, @C07_ReadByte, @C07_ReadPartialByte,
  @C07_DecodeOctetString_no_length, @C07_ReadBits, @C07_DecodeConstraintWholeNumber,
  @C07_DecodeConstraintPosWholeNumber, @C07_DecodeConstraintWholeNumberIntN,
  @C07_DecodeConstraintPosWholeNumberUIntN, @C07_DecodeSemiConstraintWholeNumber,
  @C07_DecodeSemiConstraintPosWholeNumber, @C07_DecodeUnConstraintWholeNumber, @C08_ReadBit,
  @C08_ReadByte, @C08_ReadPartialByte, @C08_ReadBits, @C08_DecodeOctetString_no_length,
  @C08_DecodeConstraintWholeNumber, @C08_DecodeConstraintPosWholeNumber,
  @C08_DecodeConstraintWholeNumberIntN, @C08_DecodeConstraintPosWholeNumberUIntN,
  @C08_DecodeSemiConstraintWholeNumber, @C08_DecodeSemiConstraintPosWholeNumber,
  @C08_DecodeUnConstraintWholeNumber, @C08_ReadBit_refuted, @C08_ReadPartialByte_refuted,
  @C08_DecodeUnConstraint_refuted, @C08_DecodeConstraint_refuted, @C13_bits, @C13_bytes_unsigned,
  @C13_bytes_signed).
Print Assumptions theorems1.
