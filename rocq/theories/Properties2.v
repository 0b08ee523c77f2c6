(** C07-C11, C38, C41-C43: octet strings, bit strings, fragmentation,
    pattern-terminated strings, decoders as prefix parsers. Statements only. *)
From Verif Require Import Base Bits StrSpec BitStream Ints Contracts Octets Parse.
From Verif Require SafeProofs ParseProofs OctetsProofs OctetsProofs2 Properties2Proofs.

(** * Specification check *)
(** The fragmented layout [frag] satisfies the equations of X.691 11.9, which
    determine it. *)
Theorem C09_frag_layout : forall items,
  let n := Z.of_nat (length items) in
  (n <= 127 -> frag items = Zbits 8 n ++ concat items) /\
  (127 < n < 16384 -> frag items = [true; false] ++ Zbits 14 n ++ concat items) /\
  (forall k blk rest, items = blk ++ rest -> Z.of_nat (length blk) = k * 16384 ->
     k = 4 \/ (1 <= k <= 3 /\ Z.of_nat (length rest) < 16384) ->
     frag items = [true; true] ++ Zbits 6 k ++ concat blk ++ frag rest).
Proof. exact Properties2Proofs.frag_eq. Qed.

(** * C09 *)
Theorem C09_encode : forall c arr n min max, Forall is_byte arr -> 0 <= n <= Z.of_nat (length arr) ->
  0 <= min <= n -> n <= max ->
  writes (BitStream_EncodeOctetString c arr n min max) true (sized min max (octets (firstn (Z.to_nat n) arr))).
Proof. exact OctetsProofs.writes_EncodeOctetString. Qed.
Theorem C09_decode : forall c l arr0 min max, Forall is_byte l -> (length l <= length arr0)%nat ->
  0 <= min <= Z.of_nat (length l) -> Z.of_nat (length l) <= max ->
  max < 65536 \/ l <> [] ->
  reads (BitStream_DecodeOctetString c arr0 min max)
    (Some (Z.of_nat (length l), l ++ skipn (length l) arr0))
    (sized min max (octets l)).
Proof. exact OctetsProofs.reads_DecodeOctetString. Qed.
(** From Init to the bytes handed to the receiver, followed by anything. *)
Theorem C09_end_to_end : forall c arr arr0 n min max mem N,
  Forall is_byte arr -> 0 <= n <= Z.of_nat (length arr) -> n <= Z.of_nat (length arr0) ->
  0 <= min <= n -> n <= max -> max < 65536 \/ 0 < n ->
  Forall is_byte mem -> 0 <= N <= Z.of_nat (length mem) ->
  Z.of_nat (length (sized min max (octets (firstn (Z.to_nat n) arr)))) <= 8 * N ->
  exists s0 s1, BitStream_Init mem N = Ok s0 /\
    BitStream_EncodeOctetString c arr n min max s0 = Ok (true, s1) /\
    forall tail, Forall is_byte tail -> exists s2,
      BitStream_DecodeOctetString c arr0 min max
        (BitStream_AttachBuffer (firstn (Z.to_nat (BitStream_GetLength s1)) (buf s1) ++ tail) (BitStream_GetLength s1))
      = Ok (Some (n, firstn (Z.to_nat n) arr ++ skipn (Z.to_nat n) arr0), s2) /\ pos s2 = pos s1.
Proof. exact Properties2Proofs.C09_end_to_end. Qed.
Example C09_example : Forall is_byte [1; 200; 3; 4] /\ 0 <= 3 <= Z.of_nat (length [1; 200; 3; 4]) /\
  0 <= 1 <= 3 /\ 3 <= 5 /\ 5 < 65536 /\
  sized 1 5 (octets (firstn 3 [1; 200; 3; 4])) = Zbits 3 2 ++ bits_of_bytes [1; 200; 3] /\
  BitStream_EncodeOctetString iso [1; 200; 3; 4] 3 1 5 (mkbs (repeat 0 4) 4 0 0) = Ok (true, mkbs [64; 57; 0; 96] 4 3 3) /\
  BitStream_DecodeOctetString iso [9; 9; 9; 9; 9] 1 5 (mkbs [64; 57; 0; 96] 4 0 0) =
    Ok (Some (3, [1; 200; 3; 9; 9]), mkbs [64; 57; 0; 96] 4 3 3).
Proof. repeat split; try (vm_compute; congruence). repeat constructor; unfold is_byte; discriminate. Qed.
(** Two 64K blocks, one 32K block, then 5 bytes. *)
Example C09_example_big : let n := 65536 * 2 + 32768 + 5 in
  let arr := repeat 171 (Z.to_nat n) in
  Forall is_byte arr /\ n <= Z.of_nat (length arr) /\
  let e := sized 0 (n + 7) (octets arr) in
  Z.of_nat (length e) = 8 * (n + 4) /\ firstn 8 e = Zbits 8 0xC4 /\
  firstn 8 (skipn (Z.to_nat (8 * 65537)) e) = Zbits 8 0xC4 /\
  firstn 8 (skipn (Z.to_nat (8 * 131074)) e) = Zbits 8 0xC2 /\
  firstn 8 (skipn (Z.to_nat (8 * (131074 + 32769))) e) = Zbits 8 5.
Proof.
  cbv zeta. split; [apply Forall_forall; intros x H; apply repeat_spec in H; subst; split; [discriminate|reflexivity]|].
  vm_compute. split; [discriminate|auto].
Qed.
(** Without the exclusion of the empty string the property is false: the encoder
    writes the empty string under a bound of 64K or more, the decoder rejects it. *)
Theorem C09_refuted : exists s1 s2,
  BitStream_EncodeOctetString iso [] 0 0 65536 (mkbs [0] 1 0 0) = Ok (true, s1) /\
  BitStream_DecodeOctetString iso (repeat 0 (Z.to_nat 65536)) 0 65536 (BitStream_AttachBuffer (buf s1) (BitStream_GetLength s1)) = Ok (None, s2).
Proof. eexists (mkbs [0] 1 1 0), (mkbs [0] 1 1 0). split; vm_compute; reflexivity. Qed.

(** * C10 *)
Theorem C10_encode : forall c arr n min max, Forall is_byte arr -> 0 <= n <= 8 * Z.of_nat (length arr) ->
  0 <= min <= n -> n <= max ->
  writes (BitStream_EncodeBitString c arr n min max) true (sized min max (single_bits (take_bits n arr))).
Proof. exact OctetsProofs.writes_EncodeBitString. Qed.
Theorem C10_decode : forall c l arr0 min max, Z.of_nat (length l) <= 8 * Z.of_nat (length arr0) ->
  0 <= min <= Z.of_nat (length l) -> Z.of_nat (length l) <= max ->
  max < 65536 \/ l <> [] ->
  reads (BitStream_DecodeBitString c arr0 min max)
    (Some (Z.of_nat (length l), pack l ++ skipn (length (pack l)) arr0))
    (sized min max (single_bits l)).
Proof. exact OctetsProofs.reads_DecodeBitString. Qed.
(** [pack l] is the bits of [l] followed by zero bits up to a whole byte. *)
Theorem C10_pack : forall l, Forall is_byte (pack l) /\
  Z.of_nat (length (pack l)) = (Z.of_nat (length l) + 7) / 8 /\
  take_bits (Z.of_nat (length l)) (pack l) = l /\
  skipn (length l) (bits_of_bytes (pack l)) = zeros (8 * length (pack l) - length l).
Proof. exact Properties2Proofs.pack_spec. Qed.
Theorem C10_end_to_end : forall c arr arr0 n min max mem N,
  Forall is_byte arr -> 0 <= n <= 8 * Z.of_nat (length arr) -> n <= 8 * Z.of_nat (length arr0) ->
  0 <= min <= n -> n <= max -> max < 65536 \/ 0 < n ->
  Forall is_byte mem -> 0 <= N <= Z.of_nat (length mem) ->
  Z.of_nat (length (sized min max (single_bits (take_bits n arr)))) <= 8 * N ->
  exists s0 s1, BitStream_Init mem N = Ok s0 /\
    BitStream_EncodeBitString c arr n min max s0 = Ok (true, s1) /\
    forall tail, Forall is_byte tail -> exists s2,
      BitStream_DecodeBitString c arr0 min max
        (BitStream_AttachBuffer (firstn (Z.to_nat (BitStream_GetLength s1)) (buf s1) ++ tail) (BitStream_GetLength s1))
      = Ok (Some (n, pack (take_bits n arr) ++ skipn (Z.to_nat ((n + 7) / 8)) arr0), s2) /\ pos s2 = pos s1.
Proof. exact Properties2Proofs.C10_end_to_end. Qed.
Example C10_example : Forall is_byte [0xAB; 0xFF] /\ 0 <= 11 <= 8 * Z.of_nat (length [0xAB; 0xFF]) /\
  0 <= 3 <= 11 /\ 11 <= 20 /\
  BitStream_EncodeBitString iso [0xAB; 0xFF] 11 3 20 (mkbs (repeat 0 2) 2 0 0) = Ok (true, mkbs [69; 95] 2 2 0) /\
  BitStream_DecodeBitString iso [9; 9; 9] 3 20 (mkbs [69; 95] 2 0 0) = Ok (Some (11, [0xAB; 0xE0; 9]), mkbs [69; 95] 2 2 0).
Proof. repeat split; try (vm_compute; congruence). repeat constructor; unfold is_byte; discriminate. Qed.
Theorem C10_refuted : exists s1 s2,
  BitStream_EncodeBitString iso [] 0 0 65536 (mkbs [0] 1 0 0) = Ok (true, s1) /\
  BitStream_DecodeBitString iso (repeat 0 (Z.to_nat 8192)) 0 65536 (BitStream_AttachBuffer (buf s1) (BitStream_GetLength s1)) = Ok (None, s2).
Proof. eexists (mkbs [0] 1 1 0), (mkbs [0] 1 1 0). split; vm_compute; reflexivity. Qed.

(** * C11 *)
(** A successful decoder had all the announced content. *)
Theorem C11_octets_fragmented : forall c arr max s n a s', wfp s ->
  BitStream_DecodeOctetString_fragmentation c arr max s = Ok (Some (n, a), s') -> pos s + 8 * n <= 8 * count s.
Proof. exact Properties2Proofs.C11_octets. Qed.
Theorem C11_octets_64K_partial : forall c arr min max s n a s', 65536 <= max -> wfp s ->
  BitStream_DecodeOctetString c arr min max s = Ok (Some (n, a), s') -> pos s + 8 * n <= 8 * count s.
Proof. exact Properties2Proofs.C11_octets64K. Qed.
Theorem C11_bits : forall c arr min max s n a s', 0 <= min <= max -> is_s64 min -> is_s64 max -> wfp s ->
  BitStream_DecodeBitString c arr min max s = Ok (Some (n, a), s') -> pos s + n <= 8 * count s.
Proof. exact Properties2Proofs.C11_bits. Qed.
(** Every truncation of an encoding is reported as FALSE. *)
Theorem C11_truncated_octets : forall c l arr0 max s pre rest, Forall is_byte l -> (length l <= length arr0)%nat ->
  1 <= Z.of_nat (length l) <= max -> max <= Z.of_nat (length arr0) -> wfs s ->
  at_ s pre (frag (octets l) ++ rest) -> 8 * count s < Z.of_nat (length pre + length (frag (octets l))) ->
  exists s', BitStream_DecodeOctetString_fragmentation c arr0 max s = Ok (None, s').
Proof. exact Properties2Proofs.C11_truncated_octets. Qed.
Theorem C11_truncated_bits : forall c l arr0 min max s pre rest, Z.of_nat (length l) <= 8 * Z.of_nat (length arr0) ->
  0 <= min <= Z.of_nat (length l) -> Z.of_nat (length l) <= max -> max < 65536 \/ l <> [] ->
  max <= 8 * Z.of_nat (length arr0) -> is_s64 max -> wfs s ->
  at_ s pre (sized min max (single_bits l) ++ rest) ->
  8 * count s < Z.of_nat (length pre + length (sized min max (single_bits l))) ->
  exists s', BitStream_DecodeBitString c arr0 min max s = Ok (None, s').
Proof. exact Properties2Proofs.C11_truncated_bits. Qed.
Example C11_example : wfs (mkbs [3; 7; 8; 9] 3 0 0) /\
  at_ (mkbs [3; 7; 8; 9] 3 0 0) [] (frag (octets [7; 8; 9]) ++ []) /\
  8 * 3 < Z.of_nat (length (@nil bool) + length (frag (octets [7; 8; 9]))) /\
  BitStream_DecodeOctetString_fragmentation iso [0; 0; 0; 0] 4 (mkbs [3; 7; 8; 9] 3 0 0) = Ok (None, mkbs [3; 7; 8; 9] 3 3 0).
Proof.
  assert (Forall is_byte [3; 7; 8; 9]) by (repeat constructor; unfold is_byte; discriminate).
  repeat split; auto; try (vm_compute; congruence).
Qed.
(** The octet string decoder with a size bound below 64K accepts a string whose
    content is missing and leaves the destination as it was. *)
Theorem C11_octets_refuted : exists s a s', wfp s /\ pos s + 8 * 3 > 8 * count s /\
  BitStream_DecodeOctetString iso [7; 7; 7] 0 3 s = Ok (Some (3, a), s') /\ a = [7; 7; 7].
Proof.
  exists (mkbs [0xC0] 1 0 0), [7; 7; 7], (mkbs [0xC0] 1 0 2). repeat split; try (vm_compute; congruence).
  repeat constructor; unfold is_byte; discriminate.
Qed.

(** * C07, C08 for the string decoders *)
Theorem C07_DecodeOctetString_fragmentation : forall c arr max,
  tamed (BitStream_DecodeOctetString_fragmentation c arr max) (fun _ => True).
Proof. exact OctetsProofs2.tamed_DecodeOctetString_fragmentation. Qed.
Theorem C07_DecodeOctetString : forall c arr min max, 0 <= min -> is_s64 min -> is_s64 max ->
  tamed (BitStream_DecodeOctetString c arr min max) (fun _ => True).
Proof. exact OctetsProofs2.tamed_DecodeOctetString. Qed.
Theorem C07_DecodeBitString : forall c arr min max, 0 <= min -> is_s64 min -> is_s64 max ->
  tamed (BitStream_DecodeBitString c arr min max) (fun _ => True).
Proof. exact OctetsProofs2.tamed_DecodeBitString. Qed.
(** No decoder writes outside the destination array: a store out of bounds is UB
    in the model. *)
Theorem C08_DecodeOctetString_fragmentation : forall c arr max, 0 <= max <= Z.of_nat (length arr) ->
  safe (BitStream_DecodeOctetString_fragmentation c arr max)
    (fun p => 1 <= fst p <= max /\ length (snd p) = length arr).
Proof. exact OctetsProofs2.safe_DecodeOctetString_fragmentation. Qed.
Theorem C08_DecodeOctetString : forall c arr min max, 0 <= min <= max -> max <= Z.of_nat (length arr) ->
  safe (BitStream_DecodeOctetString c arr min max)
    (fun p => 0 <= fst p <= max /\ (min <= fst p \/ 65536 <= max) /\ length (snd p) = length arr).
Proof. exact OctetsProofs2.safe_DecodeOctetString. Qed.
Theorem C08_DecodeBitString : forall c arr min max, 0 <= min <= max -> max <= 8 * Z.of_nat (length arr) ->
  safe (BitStream_DecodeBitString c arr min max)
    (fun p => 0 <= fst p <= max /\ (min <= fst p \/ 65536 <= max) /\ length (snd p) = length arr).
Proof. exact OctetsProofs2.safe_DecodeBitString. Qed.
Example C08_example_strings : 0 <= 2 <= 5 /\ 5 <= Z.of_nat (length [1; 2; 3; 4; 5]) /\
  wfs (mkbs [0x90; 1; 2; 3; 4; 5; 6; 7] 7 0 0).
Proof. repeat split; try (vm_compute; congruence). repeat constructor; unfold is_byte; discriminate. Qed.

(** * C38 *)
(** What is read is decided by the first occurrence of the pattern in the
    remaining declared bits; the pattern is given as [length p] bits packed into
    bytes with zero padding. *)
Theorem C38_decode : forall c p extra dst nMax s pre rest, wfp s ->
  at_ s pre rest -> Forall is_byte dst -> 1 <= nMax -> (nMax + 7) / 8 <= Z.of_nat (length dst) ->
  let q := Z.to_nat ((nMax + 7) / 8) in
  exists r s', BitStream_ReadBits_nullterminated c (pack p ++ extra) (Z.of_nat (length p)) dst nMax s = Ok (r, s') /\
    buf s' = buf s /\ count s' = count s /\ pos s <= pos s' /\
    (forall j, first_at p (OctetsProofs2.remaining s rest) j -> Z.of_nat j <= nMax ->
       r = Some (Z.of_nat j, pack (firstn j rest ++ zeros (8 * q - j)) ++ skipn q dst) /\
       at_ s' (pre ++ firstn j rest ++ p) (skipn (j + length p) rest) /\ pos s' <= 8 * count s') /\
    ((forall j, Z.of_nat j <= nMax -> ~ occurs_at p (OctetsProofs2.remaining s rest) j) -> r = None).
Proof. exact OctetsProofs2.ReadBits_nullterminated_ok. Qed.
Theorem C38_roundtrip : forall c ct p extra dst nMax s pre rest, wfp s -> Forall is_byte dst ->
  first_at p (ct ++ p) (length ct) -> 1 <= nMax -> Z.of_nat (length ct) <= nMax ->
  (nMax + 7) / 8 <= Z.of_nat (length dst) ->
  at_ s pre ((ct ++ p) ++ rest) -> Z.of_nat (length pre + length (ct ++ p)) <= 8 * count s ->
  exists s', BitStream_ReadBits_nullterminated c (pack p ++ extra) (Z.of_nat (length p)) dst nMax s =
      Ok (Some (Z.of_nat (length ct),
        pack (ct ++ zeros (8 * Z.to_nat ((nMax + 7) / 8) - length ct)) ++ skipn (Z.to_nat ((nMax + 7) / 8)) dst), s') /\
    at_ s' (pre ++ ct ++ p) rest.
Proof. exact Properties2Proofs.C38_roundtrip. Qed.
Example C38_example : let ct := [true; true; false; true] in let p := [false; false; true] in
  first_at p (ct ++ p) (length ct) /\ wfp (mkbs [0xD2; 0x55] 2 0 0) /\
  at_ (mkbs [0xD2; 0x55] 2 0 0) [] ((ct ++ p) ++ skipn 7 (bits_of_bytes [0xD2; 0x55])) /\
  BitStream_ReadBits_nullterminated iso (pack p) 3 [255; 255] 9 (mkbs [0xD2; 0x55] 2 0 0) =
    Ok (Some (4, [0xD0; 0]), mkbs [0xD2; 0x55] 2 0 7).
Proof.
  assert (Forall is_byte [0xD2; 0x55]) by (repeat constructor; unfold is_byte; discriminate).
  cbv zeta. repeat split; auto; try (vm_compute; congruence).
  intros i Hi. destruct i as [|[|[|[|i]]]]; try (vm_compute; congruence). cbn in Hi. exfalso.
  repeat apply le_S_n in Hi. inversion Hi.
Qed.
(** With a non-zero pad bit in the last pattern byte the pattern is never
    recognised; with nMax = 0 the result is FALSE although the pattern is next. *)
Theorem C38_padding_refuted : exists s s', wfp s /\
  OctetsProofs2.remaining s (bits_of_bytes (buf s)) = ones 8 /\ occurs_at (take_bits 4 [0xFF]) (ones 8) 0 /\
  BitStream_ReadBits_nullterminated iso [0xFF] 4 [0] 4 s = Ok (None, s').
Proof.
  exists (mkbs [255] 1 0 0), (mkbs [255] 1 0 4). repeat split; try (vm_compute; congruence).
  repeat constructor; unfold is_byte; discriminate.
Qed.
Theorem C38_zero_limit_refuted : exists s s', wfp s /\
  first_at (take_bits 4 [0xF0]) (OctetsProofs2.remaining s (bits_of_bytes (buf s))) 0 /\
  BitStream_ReadBits_nullterminated iso [0xF0] 4 [] 0 s = Ok (None, s').
Proof.
  exists (mkbs [255] 1 0 0), (mkbs [255] 1 0 0). repeat split; try (vm_compute; congruence).
  - repeat constructor; unfold is_byte; discriminate.
  - intros i Hi. inversion Hi.
Qed.

(** * C41 *)
(** Writing one byte too many: the byte after the buffer is overwritten and
    success is reported. *)
Theorem C41_refuted : exists s s', fits (mkbs (firstn 1 (buf s)) (count s) (curByte s) (curBit s)) /\
  count s = 1 /\ BitStream_AppendByte0 5 s = Ok (true, s') /\ skipn 1 (buf s) = [2] /\ skipn 1 (buf s') = [5].
Proof.
  exists (mkbs [1; 2] 1 1 0), (mkbs [1; 5] 1 2 0). repeat split; try (vm_compute; congruence).
  repeat constructor; unfold is_byte; discriminate.
Qed.
(** With memory ending at the buffer this is undefined behaviour. *)
Theorem C41_ub_refuted : exists s, fits s /\ BitStream_AppendByte0 5 s = UB.
Proof. exists (mkbs [1] 1 1 0). repeat split; try (vm_compute; congruence). repeat constructor; unfold is_byte; discriminate. Qed.

(** * C42: decoders are prefix parsers *)
(** A success depends only on the bits consumed, which lie in the declared data. *)
Theorem C42_ReadBit : parses SafeProofs.read_bit (fun v bs => bs = [v]).
Proof. exact ParseProofs.parses_read_bit. Qed.
Theorem C42_ReadByte : parses BitStream_ReadByte (fun v bs => is_byte v /\ bs = Zbits 8 v).
Proof. exact ParseProofs.parses_ReadByte. Qed.
Theorem C42_ReadPartialByte : forall n, 1 <= n <= 8 ->
  parses (BitStream_ReadPartialByte n) (fun v bs => 0 <= v < 2 ^ n /\ bs = Zbits (Z.to_nat n) v).
Proof. exact ParseProofs.parses_ReadPartialByte. Qed.
Theorem C42_DecodeOctetString_no_length : forall n, 0 <= n ->
  parses (BitStream_DecodeOctetString_no_length n)
    (fun d bs => Z.of_nat (length d) = n /\ Forall is_byte d /\ bs = bits_of_bytes d).
Proof. exact ParseProofs.parses_DecodeOctets. Qed.
Theorem C42_DecodeSemiConstraintWholeNumber : forall c min,
  parses (BitStream_DecodeSemiConstraintWholeNumber c min)
    (fun _ bs => exists n, 0 <= n <= 8 /\ firstn 8 bs = Zbits 8 n /\ Z.of_nat (length bs) = 8 + 8 * n).
Proof. exact ParseProofs.parses_DecodeSemi. Qed.
Theorem C42_DecodeSemiConstraintPosWholeNumber : forall c min,
  parses (BitStream_DecodeSemiConstraintPosWholeNumber c min)
    (fun _ bs => exists n, 0 <= n <= 8 /\ firstn 8 bs = Zbits 8 n /\ Z.of_nat (length bs) = 8 + 8 * n).
Proof. exact ParseProofs.parses_DecodeSemiPos. Qed.
Theorem C42_DecodeOctetString_fragmentation : forall c arr max,
  parses (BitStream_DecodeOctetString_fragmentation c arr max)
    (fun p bs => 1 <= fst p <= max /\ 8 * fst p <= Z.of_nat (length bs)).
Proof. exact OctetsProofs2.parses_DecodeOctetString_fragmentation. Qed.
Theorem C42_DecodeBitString : forall c arr min max, 0 <= min <= max -> is_s64 min -> is_s64 max ->
  parses (BitStream_DecodeBitString c arr min max) (fun p bs => 0 <= fst p <= Z.of_nat (length bs)).
Proof. exact OctetsProofs2.parses_DecodeBitString. Qed.
(** Consequence: a truncated encoding is never accepted. *)
Theorem C42_truncated : forall A (f : M (option A)) P a bs s pre rest, parses f P -> reads f (Some a) bs ->
  at_ s pre (bs ++ rest) -> wfp s -> 8 * count s < Z.of_nat (length pre + length bs) ->
  forall b s', f s <> Ok (Some b, s').
Proof. exact @ParseProofs.parses_truncated. Qed.
Example C42_example : wfp (mkbs [2; 1; 7; 99] 3 0 0) /\
  BitStream_DecodeSemiConstraintWholeNumber iso 5 (mkbs [2; 1; 7; 99] 3 0 0) =
    Ok (Some 268, mkbs [2; 1; 7; 99] 3 3 0).
Proof. repeat split; try (vm_compute; congruence). repeat constructor; unfold is_byte; discriminate. Qed.
(** False of the unconstrained integer decoder: with length octet 0 the value
    depends on the bit after the consumed octet. *)
Theorem C42_DecodeUnConstraintWholeNumber_refuted : exists s1 s2 s1' s2' v1 v2,
  wfp s1 /\ wfp s2 /\ count s1 = 1 /\ count s2 = 1 /\ firstn 1 (buf s1) = firstn 1 (buf s2) /\
  BitStream_DecodeUnConstraintWholeNumber gcc s1 = Ok (Some v1, s1') /\
  BitStream_DecodeUnConstraintWholeNumber gcc s2 = Ok (Some v2, s2') /\
  pos s1' = 8 /\ pos s2' = 8 /\ v1 <> v2.
Proof.
  exists (mkbs [0; 0] 1 0 0), (mkbs [0; 128] 1 0 0), (mkbs [0; 0] 1 1 0), (mkbs [0; 128] 1 1 0), 0, (-1).
  repeat split; try (vm_compute; congruence); repeat constructor; unfold is_byte; discriminate.
Qed.

(** * C43: constrained encodings are canonical *)
(** The only bit string that decodes to v is the one the encoder writes (C02,
    C03). *)
Theorem C43_DecodeConstraintWholeNumber : forall c min max, is_s64 min -> is_s64 max -> sfits c (max - min) ->
  parses (BitStream_DecodeConstraintWholeNumber c min max)
    (fun v bs => min <= v <= max /\ bs = Zbits (crange min max) (v - min)).
Proof. exact ParseProofs.parses_DecodeConstraint. Qed.
Theorem C43_DecodeConstraintPosWholeNumber : forall c min max, 0 <= min -> max < two64 ->
  parses (BitStream_DecodeConstraintPosWholeNumber c min max)
    (fun v bs => min <= v <= max /\ bs = Zbits (crange min max) (v - min)).
Proof. exact ParseProofs.parses_DecodeConstraintPos. Qed.
Theorem C43_ReadBits : forall n, 0 <= n ->
  parses (BitStream_ReadBits n) (fun d bs => Z.of_nat (length bs) = n /\ d = pack bs).
Proof. exact ParseProofs.parses_ReadBits. Qed.
Example C43_example : is_s64 (-3) /\ is_s64 9 /\ sfits iso (9 - -3) /\ wfp (mkbs [0x85] 1 0 1) /\
  BitStream_DecodeConstraintWholeNumber iso (-3) 9 (mkbs [0x85] 1 0 1) = Ok (Some (-3), mkbs [0x85] 1 0 5) /\
  BitStream_DecodeConstraintWholeNumber iso (-3) 9 (mkbs [0xF5] 1 0 1) = Ok (None, mkbs [0xF5] 1 0 5).
Proof.
  repeat split; try (vm_compute; congruence); try (left; split; vm_compute; congruence);
    repeat constructor; unfold is_byte; discriminate.
Qed.
(** Not so for semi-constrained numbers: a longer encoding of the same value is
    accepted. *)
Theorem C43_semi_refuted : exists s1 s2 s1' s2', pos s1 = 0 /\ pos s2 = 0 /\
  BitStream_DecodeSemiConstraintWholeNumber iso 0 s1 = Ok (Some 5, s1') /\
  BitStream_DecodeSemiConstraintWholeNumber iso 0 s2 = Ok (Some 5, s2') /\ pos s1' = 16 /\ pos s2' = 24.
Proof.
  exists (mkbs [1; 5] 2 0 0), (mkbs [2; 0; 5] 3 0 0), (mkbs [1; 5] 2 2 0), (mkbs [2; 0; 5] 3 3 0).
  repeat split; vm_compute; congruence.
Qed.

(** * Assumptions of all theorems above *)
Definition theorems2 := (
  @C09_frag_layout, @C09_encode, @C09_decode, @C09_end_to_end, @C09_refuted, @C10_encode, @C10_decode,
  @C10_pack, @C10_end_to_end, @C10_refuted, @C11_octets_fragmented, @C11_octets_64K_partial, @C11_bits,
  @C11_truncated_octets, @C11_truncated_bits, @C11_octets_refuted, @C07_DecodeOctetString_fragmentation,
  @C07_DecodeOctetString, @C07_DecodeBitString, @C08_DecodeOctetString_fragmentation,
  @C08_DecodeOctetString, @C08_DecodeBitString, @C38_decode, @C38_roundtrip, @C38_padding_refuted,
  @C38_zero_limit_refuted, @C41_refuted, @C41_ub_refuted, @C42_ReadBit, @C42_ReadByte,
  @C42_ReadPartialByte, @C42_DecodeOctetString_no_length, @C42_DecodeSemiConstraintWholeNumber,
  @C42_DecodeSemiConstraintPosWholeNumber, @C42_DecodeOctetString_fragmentation, @C42_DecodeBitString,
  @C42_truncated, @C42_DecodeUnConstraintWholeNumber_refuted, @C43_DecodeConstraintWholeNumber,
  @C43_DecodeConstraintPosWholeNumber, @C43_ReadBits, @C43_semi_refuted).
Print Assumptions theorems2.
