(** C40: XER runtime. Statements only; the proofs are in XerProofs*.v and
    Properties9Proofs.v. *)
From Coq Require Import Floats.SpecFloat Ascii String.
From Verif Require Import Base Bits ByteStream XerSpec Xer.
From Verif Require XerProofs XerProofs3 XerProofs5 Properties9Proofs.

Ltac run :=
  lazymatch goal with
  | |- _ /\ _ => split; [run|run]
  | |- Forall _ _ => repeat constructor; vm_compute; discriminate
  | |- _ => vm_compute; first [reflexivity | discriminate | split; run | idtac]
  end.
(** A text as bytes; a stream over a text, and one over a zeroed buffer. *)
Fixpoint txt (s : string) : list Z :=
  match s with EmptyString => [] | String c t => Z.of_nat (nat_of_ascii c) :: txt t end.
Definition over (l : list Z) : bytes_ := mkby l (Z.of_nat (List.length l)) 0 false.
Definition empty (n : nat) (w : bool) : bytes_ := mkby (repeat 0 n) (Z.of_nat n) 0 w.
Definition sends (f : B (option unit)) (n : nat) (w : bool) : option (list Z) :=
  match f (empty n w) with Ok (Some tt, s) => Some (firstn (Z.to_nat (cur s)) (mem s)) | _ => None end.
Definition takes {A} (f : B (option A)) (l : list Z) : option (A * Z) :=
  match f (over l) with Ok (Some a, s) => Some (a, cur s) | _ => None end.
Definition undefined {A} (f : B (option A)) (l : list Z) : Prop :=
  match f (over l) with UB => True | _ => False end.

(** An encoder that appends the line of an element, and a decoder that reads the
    element after any white space, round trip anywhere in any zeroed buffer. The
    decoder stops before the new line. All theorems below are of these two forms. *)
Theorem C40_round_trip : forall A (f : B (option unit)) (g : B (option A)) a level core, Forall is_byte core ->
  emits f tt (line level core) -> (forall w, Forall white w -> gets g a (w ++ core)) ->
  forall s pre n rest, Forall is_byte (mem s) -> zeroed s pre n rest -> (List.length (line level core (ws s)) < n)%nat ->
    exists s1 s2, f s = Ok (Some tt, s1) /\
      mem s1 = pre ++ line level core (ws s) ++ repeat 0 (n - List.length (line level core (ws s))) ++ rest /\
      g (mkby (mem s1) (size s1) (cur s) (ws s1)) = Ok (Some a, s2) /\ mem s2 = mem s1 /\
      cur s1 = cur s2 + Z.of_nat (List.length (newline (ws s))).
Proof. exact Properties9Proofs.round_trip. Qed.

(** * Numerals *)
Theorem C40_numeral : forall v, is_s64 v -> numeral v (Int2String v).
Proof. exact XerProofs.Int_numeral. Qed.
Theorem C40_unsigned_numeral : forall v, is_u64 v -> numeral v (UInt2String v).
Proof. exact XerProofs.UInt_numeral. Qed.
(** There is one numeral for a number. *)
Theorem C40_numeral_unique : forall v t t', numeral v t -> numeral v t' -> t = t'.
Proof. exact XerProofs.numeral_unique. Qed.
Theorem C40_atoll : forall L v t, is_s64 v -> numeral v t -> atoll L t = Ok v.
Proof. exact XerProofs.atoll_numeral. Qed.
Theorem C40_strtoull : forall v t, is_u64 v -> numeral v t -> strtoull t = v.
Proof. exact XerProofs.strtoull_numeral. Qed.
Example C40_numeral_ex : is_s64 (- two63) /\ Int2String (- two63) = txt "-9223372036854775808" /\
  UInt2String (two64 - 1) = txt "18446744073709551615" /\ Int2String 0 = txt "0" /\
  atoll iso_libc (txt "-9223372036854775808") = Ok (- two63) /\ strtoull (txt "18446744073709551615") = two64 - 1.
Proof. run. Qed.

(** * Encoders *)
Theorem C40_encode_text : forall tag v level, 0 <= level -> emits (Xer_EncodePrimitiveElement tag v level) tt (line level (text_element tag v)).
Proof. exact XerProofs3.emits_text. Qed.
Theorem C40_encode_null : forall tag level, 0 <= level -> emits (Xer_EncodeNull tag level) tt (line level (empty_tag tag)).
Proof. exact XerProofs3.emits_null. Qed.
Theorem C40_encode_integer : forall tag v level, 0 <= level -> is_s64 v -> exists t, numeral v t /\
  emits (Xer_EncodeInteger tag v level) tt (line level (element tag t)).
Proof. exact XerProofs3.emits_integer. Qed.
Theorem C40_encode_pos_integer : forall tag v level, 0 <= level -> is_u64 v -> exists t, numeral v t /\
  emits (Xer_EncodePosInteger tag v level) tt (line level (element tag t)).
Proof. exact XerProofs3.emits_pos_integer. Qed.
(** In a SEQUENCE OF (no tag) the element of the value stands alone. *)
Theorem C40_encode_boolean : forall tag v level, 0 <= level ->
  emits (Xer_EncodeBoolean tag v level) tt
    (line level (match tag with [] => empty_tag (bool_name v) | _ => element tag (empty_tag (bool_name v)) end)).
Proof. exact XerProofs3.emits_boolean. Qed.
Theorem C40_encode_enumerated : forall tag v level, 0 <= level -> Z.of_nat (List.length v) < 253 ->
  emits (Xer_EncodeEnumerated tag v level) tt
    (line level (match tag with [] => empty_tag v | _ => element tag (empty_tag v) end)).
Proof. exact XerProofs3.emits_enumerated. Qed.
Theorem C40_encode_octets : forall tag l q level, tag <> [] -> Forall is_byte l ->
  emits (Xer_EncodeOctetString tag (l ++ q) (Z.of_nat (List.length l)) level) tt (line level (element tag (hex_text l))).
Proof. exact XerProofs3.emits_octets. Qed.
Theorem C40_encode_bits : forall tag bs q level, tag <> [] ->
  emits (Xer_EncodeBitString tag (pack bs ++ q) (Z.of_nat (List.length bs)) level) tt (line level (element tag (bit_text bs))).
Proof. exact XerProofs5.emits_bits. Qed.
Theorem C40_encode_oid : forall tag arcs q level, tag <> [] -> Forall is_u64 arcs -> exists t, oid_text arcs t /\
  emits (Xer_EncodeObjectIdentifier tag (arcs ++ q) (Z.of_nat (List.length arcs)) level) tt (line level (element tag t)).
Proof. exact XerProofs5.emits_oid. Qed.
Theorem C40_encode_start : forall tag level, tag <> [] -> 0 <= level -> emits (Xer_EncodeComplexElementStart tag [] level) tt (line level (open_tag tag)).
Proof. exact Properties9Proofs.start_emits. Qed.
Theorem C40_encode_end : forall tag level, tag <> [] -> 0 <= level -> emits (Xer_EncodeComplexElementEnd tag level) tt (line level (close_tag tag)).
Proof. exact Properties9Proofs.end_emits. Qed.
Example C40_encode_ex :
  sends (Xer_EncodeInteger (txt "a") (-12) 1) 20 true = Some (txt "  <a>-12</a>" ++ [10]) /\
  sends (Xer_EncodeBoolean (txt "b") true 0) 20 false = Some (txt "<b><true/></b>") /\
  sends (Xer_EncodeBoolean [] false 0) 20 false = Some (txt "<false/>") /\
  sends (Xer_EncodeEnumerated (txt "e") (txt "red") 0) 20 false = Some (txt "<e><red/></e>") /\
  sends (Xer_EncodeOctetString (txt "o") [18; 255; 7] 2 0) 20 false = Some (txt "<o>12FF</o>") /\
  sends (Xer_EncodeBitString (txt "o") [160; 128] 9 0) 20 false = Some (txt "<o>101000001</o>") /\
  sends (Xer_EncodeObjectIdentifier (txt "o") [1; 3; 6] 3 0) 20 false = Some (txt "<o>1.3.6</o>") /\
  sends (Xer_EncodeNull (txt "n") 0) 20 false = Some (txt "<n/>") /\
  sends (Xer_EncodeNull (txt "n") 0) 4 false = None.
Proof. run. Qed.

(** * Decoders *)
Theorem C40_decode_text : forall L w t v max, Forall white w -> name_ok t -> Forall (fun c => c <> 60) v -> Z.of_nat (List.length v) < max ->
  gets (Xer_DecodePrimitiveElement L t max) v (w ++ text_element t v).
Proof. exact Properties9Proofs.gets_primitive. Qed.
Theorem C40_decode_string : forall L w t v max, Forall white w -> name_ok t -> Forall (fun c => c <> 60) v -> Z.of_nat (List.length v) < max ->
  gets (Xer_DecodeString L t max) v (w ++ text_element t v).
Proof. exact Properties9Proofs.gets_string. Qed.
Theorem C40_decode_null : forall L w t, Forall white w -> name_ok t -> gets (Xer_DecodeNull L t) tt (w ++ empty_tag t).
Proof. exact Properties9Proofs.gets_null. Qed.
Theorem C40_decode_integer : forall L w t v txt, Forall white w -> name_ok t -> is_s64 v -> numeral v txt ->
  gets (Xer_DecodeInteger L t) v (w ++ element t txt).
Proof. exact Properties9Proofs.gets_integer. Qed.
Theorem C40_decode_pos_integer : forall L w t v txt, Forall white w -> name_ok t -> is_u64 v -> numeral v txt ->
  gets (Xer_DecodePosInteger L t) v (w ++ element t txt).
Proof. exact Properties9Proofs.gets_pos_integer. Qed.
Theorem C40_decode_boolean : forall L w t b, Forall white w -> name_ok t ->
  gets (Xer_DecodeBoolean L t) b (w ++ element t (empty_tag (bool_name b))).
Proof. exact Properties9Proofs.gets_boolean. Qed.
Theorem C40_decode_boolean_list : forall L w b, Forall white w -> gets (Xer_DecodeBoolean L []) b (w ++ empty_tag (bool_name b)).
Proof. exact Properties9Proofs.gets_boolean_list. Qed.
Theorem C40_decode_enumerated : forall L w t n, Forall white w -> name_ok t -> name_ok n ->
  gets (Xer_DecodeEnumerated L t) n (w ++ element t (empty_tag n)).
Proof. exact Properties9Proofs.gets_enumerated. Qed.
Theorem C40_decode_enumerated_list : forall L w n, Forall white w -> name_ok n -> gets (Xer_DecodeEnumerated L []) n (w ++ empty_tag n).
Proof. exact Properties9Proofs.gets_enumerated_list. Qed.
Theorem C40_decode_octets : forall L w t l value max, Forall white w -> name_ok t -> Forall is_byte l ->
  (List.length l <= 511)%nat -> (List.length l <= List.length value)%nat -> Z.of_nat (List.length l) <= max ->
  gets (Xer_DecodeOctetString L t value max) (l ++ skipn (List.length l) value, Z.of_nat (List.length l)) (w ++ element t (hex_text l)).
Proof. exact Properties9Proofs.gets_octets. Qed.
Theorem C40_decode_bits : forall L w t bs value max, Forall white w -> name_ok t ->
  (List.length bs <= 2047)%nat -> (List.length (pack bs) <= List.length value)%nat -> Z.of_nat (List.length (pack bs)) <= max ->
  gets (Xer_DecodeBitString L t value max) (pack bs ++ skipn (List.length (pack bs)) value, Z.of_nat (List.length bs)) (w ++ element t (bit_text bs)).
Proof. exact Properties9Proofs.gets_bits. Qed.
(** An object identifier is read as as many copies of its first arc as it has
    arcs, so it is read back only if all arcs are equal. *)
Theorem C40_decode_oid_partial : forall L w tag a arcs t values, Forall white w -> name_ok tag -> 0 <= a < two63 -> Forall is_u64 arcs ->
  (List.length (a :: arcs) <= 20)%nat -> (List.length (a :: arcs) <= List.length values)%nat -> oid_text (a :: arcs) t ->
  gets (Xer_DecodeObjectIdentifier L tag values) (repeat a (List.length (a :: arcs)) ++ skipn (List.length (a :: arcs)) values) (w ++ element tag t).
Proof. exact Properties9Proofs.gets_oid. Qed.
Theorem C40_decode_start : forall L w t a, Forall white w -> name_ok t -> gets (Xer_DecodeComplexElementStart L t a) a (w ++ open_tag t).
Proof. exact Properties9Proofs.gets_start. Qed.
Theorem C40_decode_end : forall L w t, Forall white w -> name_ok t -> gets (Xer_DecodeComplexElementEnd L t) tt (w ++ close_tag t).
Proof. exact Properties9Proofs.gets_end. Qed.
Example C40_decode_ex :
  takes (Xer_DecodeInteger glibc (txt "a")) (txt "  <a>-12</a>") = Some (-12, 12) /\
  takes (Xer_DecodeBoolean glibc (txt "b")) (txt "<b><true/></b>") = Some (true, 14) /\
  takes (Xer_DecodeEnumerated glibc (txt "e")) (txt "<e><red/></e>") = Some (txt "red", 13) /\
  takes (Xer_DecodeString glibc (txt "s") 6) (txt "<s>a b>c</s>") = Some (txt "a b>c", 12) /\
  takes (Xer_DecodeString glibc (txt "s") 5) (txt "<s>a b>c</s>") = None /\
  takes (Xer_DecodeOctetString glibc (txt "o") [9; 9; 9] 3) (txt "<o>12FF</o>") = Some ([18; 255; 9], 2, 11) /\
  takes (Xer_DecodeBitString glibc (txt "o") [9; 9; 9] 3) (txt "<o>101000001</o>") = Some ([160; 128; 9], 9, 16).
Proof. run. Qed.

(** * Looking ahead *)
Theorem C40_next_tag : forall L w t, Forall white w -> name_ok t ->
  looks (Xer_LA_NextElementTag L) (Some t) (w ++ open_tag t) /\ looks (Xer_LA_NextElementTag L) (Some t) (w ++ empty_tag t).
Proof. exact Properties9Proofs.looks_tag. Qed.
Theorem C40_next_start : forall L w t t', Forall white w -> name_ok t' ->
  let b := if list_eq_dec Z.eq_dec t' t then true else false in
  looks (Xer_NextStartElementIs L t) b (w ++ open_tag t') /\ looks (Xer_NextStartElementIs L t) b (w ++ empty_tag t') /\
  looks (Xer_NextStartElementIs L t) false (w ++ close_tag t').
Proof. exact Properties9Proofs.looks_start. Qed.
Theorem C40_next_end : forall L w t t', Forall white w -> name_ok t' ->
  looks (Xer_NextEndElementIs L t') true (w ++ close_tag t') /\
  looks (Xer_NextEndElementIs L t) false (w ++ open_tag t') /\ looks (Xer_NextEndElementIs L t) false (w ++ empty_tag t').
Proof. exact Properties9Proofs.looks_end. Qed.
Example C40_next_ex : Xer_NextStartElementIs glibc (txt "a") (over (txt " <a/>")) = Ok (true, over (txt " <a/>")) /\
  Xer_NextEndElementIs glibc (txt "a") (over (txt "</a>")) = Ok (true, over (txt "</a>")).
Proof. run. Qed.

(** * Any input *)
Theorem C40_safe_text : forall L tag max, 1 <= max ->
  harmless (plain (any_char L)) (Xer_DecodePrimitiveElement L tag max)
    (fun r => match r with Some t => Forall is_byte t /\ Z.of_nat (List.length t) < max | None => True end).
Proof. exact Properties9Proofs.primitive_harmless. Qed.
Theorem C40_safe_null : forall L tag, harmless (plain (any_char L)) (Xer_DecodeNull L tag) (fun _ => True).
Proof. exact Properties9Proofs.null_harmless. Qed.
(** With a C library in which atoll saturates. *)
Theorem C40_safe_integer : forall tag, harmless (fun _ => True) (Xer_DecodeInteger glibc tag) (fun r => match r with Some v => is_s64 v | None => True end).
Proof. exact Properties9Proofs.integer_harmless. Qed.
Theorem C40_safe_pos_integer : forall L tag, harmless (plain (any_char L)) (Xer_DecodePosInteger L tag) (fun r => match r with Some v => is_u64 v | None => True end).
Proof. exact Properties9Proofs.pos_integer_harmless. Qed.
(** These three are given no array for attributes; they are safe when there is no '='. *)
Theorem C40_safe_boolean : forall L tag, harmless (no_attributes (any_char L)) (Xer_DecodeBoolean L tag) (fun _ => True).
Proof. exact Properties9Proofs.boolean_harmless. Qed.
Theorem C40_safe_enumerated : forall L tag, harmless (no_attributes (any_char L)) (Xer_DecodeEnumerated L tag) (fun _ => True).
Proof. exact Properties9Proofs.enumerated_harmless. Qed.
Theorem C40_safe_start : forall L tag a, harmless (no_attributes (any_char L)) (Xer_DecodeComplexElementStart L tag a) (fun _ => True).
Proof. exact Properties9Proofs.start_harmless. Qed.
Theorem C40_safe_end : forall L tag, harmless (plain (any_char L)) (Xer_DecodeComplexElementEnd L tag) (fun _ => True).
Proof. exact Properties9Proofs.end_harmless. Qed.
Theorem C40_safe_next_tag : forall L, harmless (plain (any_char L)) (Xer_LA_NextElementTag L) (fun _ => True).
Proof. exact Properties9Proofs.tag_harmless. Qed.
Theorem C40_safe_next_start : forall L tag, harmless (plain (any_char L)) (Xer_NextStartElementIs L tag) (fun _ => True).
Proof. exact Properties9Proofs.next_start_harmless. Qed.
Theorem C40_safe_next_end : forall L tag, harmless (plain (any_char L)) (Xer_NextEndElementIs L tag) (fun _ => True).
Proof. exact Properties9Proofs.next_end_harmless. Qed.
Theorem C40_safe_octets : forall L tag value max, max <= Z.of_nat (List.length value) ->
  harmless (plain (any_char L)) (Xer_DecodeOctetString L tag value max)
    (fun r => match r with Some (v, n) => List.length v = List.length value /\ 0 <= n <= 512 | None => True end).
Proof. exact Properties9Proofs.octets_harmless. Qed.
(** memset clears what the text needs, whatever the bound, so the array needs room for
    2047 bits. *)
Theorem C40_safe_bits : forall L tag value max, max <= Z.of_nat (List.length value) -> 256 <= Z.of_nat (List.length value) ->
  harmless (plain (any_char L)) (Xer_DecodeBitString L tag value max)
    (fun r => match r with Some (v, n) => List.length v = List.length value /\ 0 <= n <= 2047 | None => True end).
Proof. exact Properties9Proofs.bits_harmless. Qed.
Theorem C40_safe_oid : forall tag values, (20 <= List.length values)%nat ->
  harmless (fun _ => True) (Xer_DecodeObjectIdentifier glibc tag values) (fun r => match r with Some v => List.length v = List.length values | None => True end).
Proof. exact Properties9Proofs.oid_harmless. Qed.
Example C40_safe_ex : let s := over (txt "<a><!-- x") in
  Forall is_byte (mem s) /\ 0 <= cur s <= size s + 1 /\ size s <= Z.of_nat (List.length (mem s)) /\
  (exists s', Xer_DecodeNull glibc (txt "a") s = Ok (None, s')).
Proof. cbv zeta. split; [repeat constructor; vm_compute; discriminate|]. split; [split; vm_compute; discriminate|]. split; [vm_compute; discriminate|]. exists (mkby (txt "<a><!-- x") 9 10 false). vm_compute. reflexivity. Qed.

(** With an array, a start tag is read with up to 20 attributes whose names are
    shorter than 50 characters and whose values are words. *)
Theorem C40_decode_attributes : forall L w w' t l ts, Forall white w -> Forall white w' -> name_ok t ->
  Forall (fun nv => name_ok (fst nv) /\ (List.length (fst nv) < 50)%nat /\ name_ok (snd nv)) l -> (List.length l <= 20)%nat ->
  Forall2 attribute l ts ->
  gets (Xer_DecodeComplexElementStart L t (Some [])) (Some l) (w ++ [60] ++ t ++ concat ts ++ w' ++ [62]).
Proof. exact Properties9Proofs.gets_start_attributes. Qed.
Example C40_decode_attributes_ex : attribute (txt "k", txt "v") (txt " k= ""v""") /\
  takes (Xer_DecodeComplexElementStart iso_libc (txt "s") (Some [])) (txt "<s k= ""v"" j=""w"" >") =
    Some (Some [(txt "k", txt "v"); (txt "j", txt "w")], 17).
Proof.
  split; [|vm_compute; reflexivity]. exists [32], [], [32]. repeat split; repeat constructor. discriminate.
Qed.

(** * What fails *)
(** Over a buffer that does not hold zeros, the text lands elsewhere or beyond the memory. *)
Theorem C40_buffer_refuted : (exists s s', Xer_EncodeNull (txt "a") 0 s = Ok (Some tt, s') /\ firstn 4 (mem s') <> txt "<a/>") /\
  (exists s, (size s = 9 /\ cur s = 0) /\ Xer_EncodeNull (txt "a") 0 s = UB).
Proof.
  split.
  - exists (mkby (txt "old" ++ repeat 0 20) 20 0 false), (mkby (txt "old<a/>" ++ repeat 0 16) 20 4 false). split; [vm_compute; reflexivity|vm_compute; discriminate].
  - exists (mkby (txt "0123456789") 9 0 false). run.
Qed.
(** A '<' in a string is not escaped, and the string is not read back. *)
Theorem C40_escape_refuted : exists v t, sends (Xer_EncodePrimitiveElement (txt "s") v 0) 40 false = Some t /\
  takes (Xer_DecodeString glibc (txt "s") 20) t = None.
Proof. exists (txt "a<b"), (txt "<s>a<b</s>"). run. Qed.
(** Attributes are written without white space before them, so the start of the
    element is not read back; read from elsewhere, they are stored through NULL. *)
Theorem C40_attributes_refuted : exists t, sends (Xer_EncodeComplexElementStart (txt "s") [(txt "k", txt "v")] 0) 40 false = Some t /\
  takes (Xer_DecodeComplexElementStart glibc (txt "s") (Some [])) t = None.
Proof. exists (txt "<sk=""v"">"). split; vm_compute; reflexivity. Qed.
Theorem C40_attributes_null_refuted : exists l, Forall (fun b => 0 <= b < 128) l /\
  undefined (Xer_DecodeComplexElementStart glibc (txt "s") None) l /\ undefined (Xer_DecodeBoolean glibc (txt "s")) l.
Proof. exists (txt "<s k=""v""><true/></s>"). split; [repeat constructor; vm_compute; discriminate|]. split; vm_compute; exact I. Qed.
(** A name of 50 characters overruns Name, although a token can have 99. *)
Theorem C40_attribute_name_refuted : exists l, undefined (Xer_DecodeComplexElementStart glibc (txt "s") (Some [])) l.
Proof. exists (txt "<s " ++ repeat 65 50 ++ txt "=""v"">"). vm_compute. exact I. Qed.
(** An empty element is refused as the start of a constructed value. *)
Theorem C40_empty_refuted : takes (Xer_DecodeComplexElementStart glibc (txt "s") None) (txt "<s/>") = None.
Proof. run. Qed.
(** ISO C: a byte above 127 is outside the domain of isalpha, and a numeral out of
    range that of atoll. *)
Theorem C40_char_refuted : exists l, undefined (Xer_DecodeNull iso_libc (txt "a")) l.
Proof. exists [60; 200]. vm_compute. exact I. Qed.
Theorem C40_range_refuted : exists l, undefined (Xer_DecodeInteger iso_libc (txt "a")) l.
Proof. exists (txt "<a>9223372036854775808</a>"). vm_compute. exact I. Qed.
(** Texts that are no numerals are read as numbers. *)
Theorem C40_not_numeral_refuted : takes (Xer_DecodeInteger glibc (txt "a")) (txt "<a>x</a>") = Some (0, 8) /\
  takes (Xer_DecodeInteger glibc (txt "a")) (txt "<a/>") = Some (0, 4) /\
  takes (Xer_DecodeInteger glibc (txt "a")) (txt "<a>1x</a>") = Some (1, 9) /\
  takes (Xer_DecodeInteger glibc (txt "a")) (txt "<a>9223372036854775808</a>") = Some (two63 - 1, 26) /\
  takes (Xer_DecodePosInteger glibc (txt "a")) (txt "<a>-1</a>") = Some (two64 - 1, 9).
Proof. run. Qed.
(** More than 511 octets or 2047 bits are not read back. *)
Theorem C40_long_octets_refuted : exists t, sends (Xer_EncodeOctetString (txt "o") (repeat 0 512) 512 0) 1100 false = Some t /\
  takes (Xer_DecodeOctetString glibc (txt "o") (repeat 9 512) 512) t = None.
Proof. exists (element (txt "o") (hex_text (repeat 0 512))). split; vm_compute; reflexivity. Qed.
Theorem C40_long_bits_refuted : takes (Xer_DecodeBitString glibc (txt "o") (repeat 9 256) 256) (element (txt "o") (bit_text (repeat true 2048))) = None.
Proof. vm_compute. reflexivity. Qed.
(** The count reported may exceed the array; a bit string longer than the array
    makes memset overrun it; any character is taken for bits. *)
Theorem C40_octets_count_refuted : takes (Xer_DecodeOctetString glibc (txt "o") [9; 9] 2) (txt "<o>01020304</o>") = Some ([1; 2], 4, 15).
Proof. run. Qed.
Theorem C40_bits_overrun_refuted : exists l, undefined (Xer_DecodeBitString glibc (txt "o") [9] 1) l.
Proof. exists (txt "<o>010101010</o>"). vm_compute. exact I. Qed.
Theorem C40_bits_text_refuted : takes (Xer_DecodeBitString glibc (txt "o") [9] 1) (txt "<o>7</o>") = Some ([128], 1, 8).
Proof. run. Qed.
(** Object identifiers: see C40_decode_oid_partial. *)
Theorem C40_oid_refuted : takes (Xer_DecodeObjectIdentifier glibc (txt "o") (repeat 0 4)) (txt "<o>1.3.6</o>") = Some ([1; 1; 1; 0], 12).
Proof. run. Qed.
(** A name of 253 characters overruns tmp. *)
Theorem C40_enumerated_refuted : Xer_EncodeEnumerated (txt "e") (repeat 65 253) 0 (empty 600 false) = UB.
Proof. vm_compute. reflexivity. Qed.
(** The header is copied without regard to the size of the buffer. *)
Theorem C40_header_refuted : Xer_EncodeXmlHeader (txt "<?xml?>") (empty 4 false) = UB.
Proof. run. Qed.
(** The text of a real: the scaling loop does not end for infinity; below 1e-17 it is 0. *)
Theorem C40_real_infinity_refuted : forall fuel b r, Double2String fuel (S754_infinity b) <> Ok r.
Proof. exact Properties9Proofs.real_infinity. Qed.
Theorem C40_real_small_refuted : Double2String 400 (S754_finite false 4503599627370496 (-109)) = Ok DZero.
Proof. run. Qed.

(** * Assumptions of all theorems above *)
Definition theorems9 := (
  @C40_round_trip, @C40_numeral, @C40_unsigned_numeral, @C40_numeral_unique, @C40_atoll, @C40_strtoull,
  @C40_encode_text, @C40_encode_null, @C40_encode_integer, @C40_encode_pos_integer, @C40_encode_boolean,
  @C40_encode_enumerated, @C40_encode_octets, @C40_encode_bits, @C40_encode_oid, @C40_encode_start,
  @C40_encode_end, @C40_decode_text, @C40_decode_string, @C40_decode_null, @C40_decode_integer,
  @C40_decode_pos_integer, @C40_decode_boolean, @C40_decode_boolean_list, @C40_decode_enumerated,
  @C40_decode_enumerated_list, @C40_decode_octets, @C40_decode_bits, @C40_decode_oid_partial,
  @C40_decode_start, @C40_decode_end, @C40_next_tag, @C40_next_start, @C40_next_end, @C40_safe_text,
  @C40_safe_null, @C40_safe_integer, @C40_safe_pos_integer, @C40_safe_boolean, @C40_safe_enumerated,
  @C40_safe_start, @C40_safe_end, @C40_safe_next_tag, @C40_safe_next_start, @C40_safe_next_end,
  @C40_safe_octets, @C40_safe_bits, @C40_safe_oid, @C40_decode_attributes, @C40_buffer_refuted,
  @C40_escape_refuted, @C40_attributes_refuted, @C40_attributes_null_refuted,
  @C40_attribute_name_refuted, @C40_empty_refuted, @C40_char_refuted, @C40_range_refuted,
  @C40_not_numeral_refuted, @C40_long_octets_refuted, @C40_long_bits_refuted, @C40_octets_count_refuted,
  @C40_bits_overrun_refuted, @C40_bits_text_refuted, @C40_oid_refuted, @C40_enumerated_refuted,
  @C40_header_refuted, @C40_real_infinity_refuted, @C40_real_small_refuted).
Print Assumptions theorems9.
