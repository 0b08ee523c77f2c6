{
 "claims": [
  {
   "property": "C01",
   "status": "proved",
   "theorems": [
    "C01_history",
    "C01_append_any_offset",
    "C01_read_any_offset"
   ],
   "note": "All twelve append operations; one-shot build; buffer large enough."
  },
  {
   "property": "C02",
   "status": "proved",
   "theorems": [
    "C02_encode",
    "C02_decode",
    "C02_width",
    "C02_decode_narrow",
    "C02_refuted"
   ],
   "note": "For every configuration when max-min fits in int64, and for every int64 range when signed overflow wraps. C02_refuted: undefined behaviour otherwise."
  },
  {
   "property": "C03",
   "status": "proved",
   "theorems": [
    "C03_encode",
    "C03_decode",
    "C03_decode_narrow"
   ],
   "note": "Includes the 8/16/32-bit decoders."
  },
  {
   "property": "C04",
   "status": "proved",
   "theorems": [
    "C04_encode",
    "C04_decode",
    "C04_encode_pos",
    "C04_decode_pos",
    "C04_minimal"
   ],
   "note": "Signed and unsigned entry points; the signed ones need v-min representable or wrapping arithmetic."
  },
  {
   "property": "C05",
   "status": "proved",
   "theorems": [
    "C05_encode",
    "C05_decode",
    "C05_minimal",
    "C05_encode_refuted",
    "C05_decode_refuted"
   ],
   "note": "Needs wrapping left shift for negative values and wrapping negation for INT64_MIN; the C05_*_refuted theorems show the undefined behaviour otherwise."
  },
  {
   "property": "C06",
   "status": "proved",
   "theorems": [
    "C06_signed",
    "C06_unsigned",
    "C06_signed_narrow",
    "C06_unsigned_narrow"
   ],
   "note": "From any memory content and any cursor, including outside the buffer."
  },
  {
   "property": "C07",
   "status": "proved",
   "theorems": [
    "C07_ReadBit",
    "C07_ReadByte",
    "C07_ReadPartialByte",
    "C07_DecodeOctetString_no_length",
    "C07_ReadBits",
    "C07_DecodeConstraintWholeNumber",
    "C07_DecodeConstraintPosWholeNumber",
    "C07_DecodeConstraintWholeNumberIntN",
    "C07_DecodeConstraintPosWholeNumberUIntN",
    "C07_DecodeSemiConstraintWholeNumber",
    "C07_DecodeSemiConstraintPosWholeNumber",
    "C07_DecodeUnConstraintWholeNumber",
    "C07_DecodeOctetString_fragmentation",
    "C07_DecodeOctetString",
    "C07_DecodeBitString",
    "C07_ObjectIdentifier_uper_decode",
    "C07_RelativeOID_uper_decode",
    "C07_DecodeReal",
    "C07_DecodeReal_fp32"
   ],
   "note": "For every modelled decoder; C07_ theorems assume nothing about the memory. The safe contract of the C08_ theorems repeats it with totality."
  },
  {
   "property": "C08",
   "status": "partial",
   "theorems": [
    "C08_ReadBit",
    "C08_ReadByte",
    "C08_ReadPartialByte",
    "C08_ReadBits",
    "C08_DecodeOctetString_no_length",
    "C08_DecodeConstraintWholeNumber",
    "C08_DecodeConstraintPosWholeNumber",
    "C08_DecodeConstraintWholeNumberIntN",
    "C08_DecodeConstraintPosWholeNumberUIntN",
    "C08_DecodeSemiConstraintWholeNumber",
    "C08_DecodeSemiConstraintPosWholeNumber",
    "C08_DecodeUnConstraintWholeNumber",
    "C08_ReadBit_refuted",
    "C08_ReadPartialByte_refuted",
    "C08_DecodeUnConstraint_refuted",
    "C08_DecodeConstraint_refuted",
    "C08_DecodeOctetString_fragmentation",
    "C08_DecodeOctetString",
    "C08_DecodeBitString",
    "C08_ObjectIdentifier_uper_decode",
    "C08_RelativeOID_uper_decode",
    "C08_DecodeReal",
    "C08_DecodeReal_fp32",
    "C08_DecodeReal_refuted",
    "C08_DecodeReal_overflow_refuted"
   ],
   "note": "Proved with one readable byte after the declared data; false without it (C08_*_refuted)."
  },
  {
   "property": "C09",
   "status": "proved",
   "theorems": [
    "C09_frag_layout",
    "C09_encode",
    "C09_decode",
    "C09_end_to_end",
    "C09_refuted"
   ],
   "note": "For every size except the empty string under a bound of 64K or more, where the property is false (C09_refuted)."
  },
  {
   "property": "C10",
   "status": "proved",
   "theorems": [
    "C10_encode",
    "C10_decode",
    "C10_pack",
    "C10_end_to_end",
    "C10_refuted"
   ],
   "note": "As C09; C10_refuted for the empty string under a bound of 64K or more."
  },
  {
   "property": "C11",
   "status": "partial",
   "theorems": [
    "C11_octets_fragmented",
    "C11_octets_64K_partial",
    "C11_bits",
    "C11_truncated_octets",
    "C11_truncated_bits",
    "C11_octets_refuted"
   ],
   "note": "Proved for bit strings and for the fragmented octet string decoder. False for the octet string decoder with a bound below 64K (C11_octets_refuted): the code ignores the failure of reading the content."
  },
  {
   "property": "C12",
   "status": "partial",
   "theorems": [
    "C12_encode",
    "C12_decode",
    "C12_any_double",
    "C12_unchanged_iff",
    "C12_decode_x690",
    "C12_decode_x690_small",
    "C12_float",
    "C12_small_refuted",
    "C12_subnormal_refuted",
    "C12_minus_zero_refuted",
    "C12_exponent_length_refuted",
    "C12_mantissa_refuted",
    "C12_decimal_refuted",
    "C12_canonical_refuted",
    "C12_iso_refuted"
   ],
   "note": "Proved for every double except -0 and magnitudes below 2^-971, which are fully characterised by C12_any_double (C12_small_refuted, C12_subnormal_refuted, C12_minus_zero_refuted); negative exponents need defined shifts of negative numbers (C12_iso_refuted)."
  },
  {
   "property": "C13",
   "status": "proved",
   "theorems": [
    "C13_bits",
    "C13_bytes_unsigned",
    "C13_bytes_signed"
   ],
   "note": ""
  },
  {
   "property": "C14",
   "status": "proved",
   "theorems": [
    "C14_subid_unique",
    "C14_encode",
    "C14_decode",
    "C14_encode_relative",
    "C14_decode_relative",
    "C14_end_to_end",
    "C14_end_to_end_relative",
    "C14_joint_iso_refuted",
    "C14_count_refuted"
   ],
   "note": "Every value accepted by the validity predicate with nCount <= 20. C14_joint_iso_refuted: {2 n} with n >= 40, which the predicate rejects, is not read back; C14_count_refuted: the predicate does not bound nCount."
  },
  {
   "property": "C15",
   "status": "proved",
   "theorems": [
    "C15_end_to_end",
    "C15_nbits",
    "C15_octet",
    "C15_big_endian",
    "C15_little_endian",
    "C15_narrow",
    "C15_milbus",
    "C15_milbus_refuted"
   ],
   "note": "MIL-STD-1553 counts: for 1..32; 0 is sent as 0 and read as 32 (C15_milbus_refuted)."
  },
  {
   "property": "C16",
   "status": "partial",
   "theorems": [
    "C16_nbits",
    "C16_octet",
    "C16_big_endian",
    "C16_little_endian",
    "C16_narrow",
    "C16_min_refuted",
    "C16_negative_refuted"
   ],
   "note": "Proved except -2^63 with 64 bit encoders, which negate it (C16_min_refuted), and the n-bit decoder of negative values where left shifts of negative numbers are undefined (C16_negative_refuted)."
  },
  {
   "property": "C17",
   "status": "partial",
   "theorems": [
    "C17_unsigned",
    "C17_signed",
    "C17_least_unsigned",
    "C17_least_signed"
   ],
   "note": "Proved except -2^63, which the encoder negates (C16_min_refuted); with wrapping signed arithmetic for all values."
  },
  {
   "property": "C18",
   "status": "partial",
   "theorems": [
    "C18_const",
    "C18_length_partial",
    "C18_terminated",
    "C18_size",
    "C18_length_refuted",
    "C18_nibble_refuted"
   ],
   "note": "Proved for all forms except length-prefixed BCD of more than 16 digits, which the decoder refuses (C18_length_refuted). The fixed size decoder accepts nibbles above 9 (C18_nibble_refuted)."
  },
  {
   "property": "C19",
   "status": "partial",
   "theorems": [
    "C19_const_unsigned",
    "C19_const_signed",
    "C19_length_unsigned",
    "C19_length_signed",
    "C19_terminated_unsigned",
    "C19_terminated_signed",
    "C19_min_refuted",
    "C19_abort_refuted",
    "C19_terminator_refuted"
   ],
   "note": "Proved except -2^63 (C19_min_refuted) and terminators longer than ten bytes (C19_terminator_refuted)."
  },
  {
   "property": "C20",
   "status": "partial",
   "theorems": [
    "C20_array",
    "C20_ascii_fixed",
    "C20_index_fixed",
    "C20_terminated",
    "C20_terminated_mult",
    "C20_ascii_external",
    "C20_index_external",
    "C20_ascii_internal",
    "C20_index_internal",
    "C20_IA5",
    "C20_overflow_refuted",
    "C20_long_refuted",
    "C20_index_refuted"
   ],
   "note": "Proved for every format under the stated conditions; false for terminators of several bytes when the input has no terminator in max+1 characters (C20_overflow_refuted, C20_long_refuted) and for alphabets with characters above 127 (C20_index_refuted)."
  },
  {
   "property": "C21",
   "status": "proved",
   "theorems": [
    "C21_pattern",
    "C21_true_false",
    "C21_verdict",
    "C21_true_false_verdict",
    "C21_ignore"
   ],
   "note": "The encoder of a pattern is the call of BitStream_AppendBits in the generated code."
  },
  {
   "property": "C22",
   "status": "proved",
   "theorems": [
    "C22_align",
    "C22_least"
   ],
   "note": "Encoder and decoder use the same functions."
  },
  {
   "property": "C23",
   "status": "proved",
   "theorems": [
    "C23_patch",
    "C23_patch_again",
    "C23_deferred_U8",
    "C23_deferred_big_endian",
    "C23_deferred_little_endian",
    "C23_deferred_I8",
    "C23_deferred_twos_big_endian",
    "C23_deferred_bool",
    "C23_deferred_nbits",
    "C23_deferred_twos_nbits",
    "C23_deferred_IA5",
    "C23_IA5_patch",
    "C23_IA5_again",
    "C23_distance",
    "C23_IA5_refuted"
   ],
   "note": "Every instance of the determinant macros and the IA5String determinant. Comparison of strings longer than 255 characters fails (C23_IA5_refuted)."
  },
  {
   "property": "C24",
   "status": "proved",
   "theorems": [
    "C24_double",
    "C24_float",
    "C24_double_pattern",
    "C24_float_pattern",
    "C24_float_refuted"
   ],
   "note": "All NaN patterns are one value in the model; 32 bit encoding of a double rounds (C24_float_refuted)."
  },
  {
   "property": "C25",
   "status": "partial",
   "theorems": [
    "C25_tag",
    "C25_tag_read",
    "C25_tag_only",
    "C25_tag_refused",
    "C25_identifier",
    "C25_identifier_read",
    "C25_identifier_only",
    "C25_long_tag_refuted",
    "C25_length",
    "C25_length_shortest",
    "C25_length_read",
    "C25_length_meaning",
    "C25_length_only",
    "C25_length_only_partial",
    "C25_length_refuted",
    "C25_indefinite",
    "C25_next_tag",
    "C25_next_zeroes"
   ],
   "note": "Round trip and exactness of tags up to four octets, of definite lengths below 2^31 and of the indefinite form. Refuted: identifiers of five octets or more are written but reading them is undefined behaviour (shift by 32); lengths of five or more octets are taken modulo 2^32, lengths from 2^31 come out negative (2^32-1 as indefinite), the reserved octet 0xFF is accepted."
  },
  {
   "property": "C26",
   "status": "partial",
   "theorems": [
    "C26_round_trip",
    "C26_tlv_bytes",
    "C26_integer",
    "C26_integer_back",
    "C26_integer_read",
    "C26_integer_only",
    "C26_integer_refuted",
    "C26_integer_outcome",
    "C26_boolean",
    "C26_boolean_back",
    "C26_boolean_read",
    "C26_boolean_only",
    "C26_null",
    "C26_null_back",
    "C26_null_only",
    "C26_octets",
    "C26_octets_back",
    "C26_octets_read",
    "C26_octets_only",
    "C26_ia5",
    "C26_ia5_back",
    "C26_ia5_read",
    "C26_ia5_only",
    "C26_octets_refuted",
    "C26_bits",
    "C26_bits_back",
    "C26_bits_read",
    "C26_bits_only",
    "C26_bits_refuted",
    "C26_real",
    "C26_real_back",
    "C26_real_refuted"
   ],
   "note": "Round trip for every value of INTEGER, BOOLEAN, NULL, OCTET STRING, IA5String, BIT STRING and (as returned by the uPER codec) REAL, and what each decoder accepts. Refuted: INTEGER of length 0, above 8 or indefinite is undefined behaviour; strings that do not fit are silently cut; negative counts from indefinite lengths and from unchecked numbers of unused bits; REAL does not understand long lengths."
  },
  {
   "property": "C27",
   "status": "partial",
   "theorems": [
    "C27_put_refuted",
    "C27_get_refuted",
    "C27_no_spare_byte_refuted",
    "C27_get_partial",
    "C27_put_partial",
    "C27_decode_tag_partial",
    "C27_decode_length_partial",
    "C27_decode_zeroes_partial",
    "C27_decode_boolean_partial",
    "C27_decode_null_partial",
    "C27_decode_octets_partial",
    "C27_decode_ia5_partial",
    "C27_decode_bits_partial",
    "C27_decode_real_partial",
    "C27_encode_tag_partial",
    "C27_encode_length_partial",
    "C27_encode_integer_partial",
    "C27_encode_boolean_partial",
    "C27_encode_null_partial",
    "C27_encode_octets_partial",
    "C27_encode_bits_partial",
    "C27_encode_real_partial",
    "C27_encode_indefinite_partial"
   ],
   "note": "Refuted: the test currentByte+1 > count+1 lets one byte past the end be written or read. Proved for every codec: given one spare byte behind the buffer nothing else is touched."
  },
  {
   "property": "C28",
   "status": "proved",
   "theorems": [
    "C28_int2uint",
    "C28_uint2int",
    "C28_roundtrip",
    "C28_min_refuted",
    "C28_width_refuted"
   ],
   "note": "For widths 1..8 and, for INT64_MIN, wrapping negation; both conditions are needed (refuted theorems)."
  },
  {
   "property": "C29",
   "status": "proved",
   "theorems": [
    "C29_binarySearch",
    "C29_linearSearch",
    "C29_agree",
    "C29_unsorted_refuted"
   ],
   "note": ""
  },
  {
   "property": "C30",
   "status": "partial",
   "theorems": [
    "C30_encode",
    "C30_decode",
    "C30_end_to_end",
    "C30_round_trip",
    "C30_canonical",
    "C30_nul_refuted",
    "C30_containing_refuted"
   ],
   "note": "All types of the generator except the TIME types; every bit offset. REAL values outside C12 are not valid values. False for NUL characters in variable-size strings (C30_nul_refuted) and for CONTAINING types whose computed minimal size is wrong (C30_containing_refuted)."
  },
  {
   "property": "C31",
   "status": "partial",
   "theorems": [
    "C31_encode",
    "C31_decode",
    "C31_enum_refuted",
    "C31_alphabet_refuted",
    "C31_fixed_refuted",
    "C31_containing_refuted",
    "C31_real_refuted"
   ],
   "note": "Proved for types satisfying conform; the five C31_*_refuted theorems show the deviations outside it. TIME types are not modelled."
  },
  {
   "property": "C32",
   "status": "proved",
   "theorems": [
    "C32_max",
    "C32_buffer",
    "C32_bit_string_refuted"
   ],
   "note": "For the types modelled (no TIME). C32_bit_string_refuted: false for a BIT STRING narrowed by WITH COMPONENTS."
  },
  {
   "property": "C33",
   "status": "partial",
   "theorems": [
    "C33_min",
    "C33_extensible_refuted",
    "C33_64K_refuted"
   ],
   "note": "Proved without extensible INTEGER and without variable sizes that may reach 64K; false for both (refuted)."
  },
  {
   "property": "C34",
   "status": "proved",
   "theorems": [
    "C34_unique",
    "C34_concatenated_encode",
    "C34_concatenated_decode"
   ],
   "note": "For the types modelled; CONTAINING types need correct computed sizes (cont_fit)."
  },
  {
   "property": "C35",
   "status": "partial",
   "theorems": [
    "C35_shape",
    "C35_safe",
    "C35_checked",
    "C35_octets_refuted",
    "C35_semi_refuted",
    "C35_overrun_refuted",
    "C35_lost_item_refuted",
    "C35_enum_table_refuted"
   ],
   "note": "Shape for all types; safety for guarded types. The C35_*_refuted theorems show what fails outside."
  },
  {
   "property": "C36",
   "status": "partial",
   "theorems": [
    "C36_contains",
    "C36_contains_clean",
    "C36_contains_refuted",
    "C36_union",
    "C36_union_least",
    "C36_intersection",
    "C36_rejected",
    "C36_tight_refuted",
    "C36_empty_refuted",
    "C36_string_sizes",
    "C36_sizes",
    "C36_class",
    "C36_source",
    "C36_inclusion_refuted",
    "C36_addition_refuted",
    "C36_integer_type",
    "C36_extensible_type",
    "C36_additions_type",
    "C36_octets_type",
    "C36_bits_type",
    "C36_serial_refuted"
   ],
   "note": "Contains every permitted value when no bound has the form MIN..b, or no intersection meets MIN..x with a..b, a<x<b: that case is refuted (C36_contains_refuted). Also: the types generated from constraints encode exactly the permitted values. Refuted: tightness, rejection of empty types, extension markers under serial constraints, unions with unconstrained included types, additions of MIN..MAX."
  },
  {
   "property": "C37",
   "status": "proved",
   "theorems": [
    "C37_GetCharIndex",
    "C37_GetCharIndex_missing",
    "C37_high_refuted",
    "C37_alphabet",
    "C37_canonical",
    "C37_exact",
    "C37_string_type"
   ],
   "note": "The alphabet contains every character of a permitted string (all constraints), is in canonical order, and is exact for one FROM constraint without EXCEPT; the generated string type encodes exactly the permitted strings. Run time: GetCharIndex returns the index of a character of the set."
  },
  {
   "property": "C38",
   "status": "proved",
   "theorems": [
    "C38_decode",
    "C38_roundtrip",
    "C38_padding_refuted",
    "C38_zero_limit_refuted"
   ],
   "note": "For a limit of at least one bit and zero pad bits in the pattern; the two C38_*_refuted theorems show both conditions are needed."
  },
  {
   "property": "C39",
   "status": "partial",
   "theorems": [
    "C39_bit",
    "C39_byte",
    "C39_byte_part",
    "C39_octets",
    "C39_align",
    "C39_align_word",
    "C39_one_shot",
    "C39_plain",
    "C39_read",
    "C39_read_byte",
    "C39_read_integer",
    "C39_read_octets",
    "C39_read_align",
    "C39_round_trip",
    "C39_attach",
    "C39_past_end",
    "C39_stale_refuted",
    "C39_stale_part_refuted",
    "C39_zeros",
    "C39_small_block_refuted",
    "C39_octets_refuted",
    "C39_octets_refused",
    "C39_bits_lost_refuted",
    "C39_read_octets_outside",
    "C39_read_integer_refuted",
    "C39_word_refuted"
   ],
   "note": "Proved: writers of bits, bytes and ones (any block size, block cleared or not); of parts of bytes, zeros and the integer encoders (pushData clears the block, blocks of 8 bytes or more); octets inside a block; alignment; readers of bits, parts of bytes, integers (with the exact condition under which they fail). Whole messages equal the one-shot encoding, and short ones are read back in blocks of any size. Refuted beyond that: no clearing, shorter blocks, octet strings and whole bytes over the end of a block, word alignment. The end of the data is not detected. checkBitPatternPresent is not modelled in streaming mode."
  },
  {
   "property": "C40",
   "status": "partial",
   "theorems": [
    "C40_round_trip",
    "C40_numeral",
    "C40_unsigned_numeral",
    "C40_numeral_unique",
    "C40_atoll",
    "C40_strtoull",
    "C40_encode_text",
    "C40_encode_null",
    "C40_encode_integer",
    "C40_encode_pos_integer",
    "C40_encode_boolean",
    "C40_encode_enumerated",
    "C40_encode_octets",
    "C40_encode_bits",
    "C40_encode_oid",
    "C40_encode_start",
    "C40_encode_end",
    "C40_decode_text",
    "C40_decode_string",
    "C40_decode_null",
    "C40_decode_integer",
    "C40_decode_pos_integer",
    "C40_decode_boolean",
    "C40_decode_boolean_list",
    "C40_decode_enumerated",
    "C40_decode_enumerated_list",
    "C40_decode_octets",
    "C40_decode_bits",
    "C40_decode_oid_partial",
    "C40_decode_start",
    "C40_decode_end",
    "C40_next_tag",
    "C40_next_start",
    "C40_next_end",
    "C40_safe_text",
    "C40_safe_null",
    "C40_safe_integer",
    "C40_safe_pos_integer",
    "C40_safe_boolean",
    "C40_safe_enumerated",
    "C40_safe_start",
    "C40_safe_end",
    "C40_safe_next_tag",
    "C40_safe_next_start",
    "C40_safe_next_end",
    "C40_safe_octets",
    "C40_safe_bits",
    "C40_safe_oid",
    "C40_decode_attributes",
    "C40_buffer_refuted",
    "C40_escape_refuted",
    "C40_attributes_refuted",
    "C40_attributes_null_refuted",
    "C40_attribute_name_refuted",
    "C40_empty_refuted",
    "C40_char_refuted",
    "C40_range_refuted",
    "C40_not_numeral_refuted",
    "C40_long_octets_refuted",
    "C40_long_bits_refuted",
    "C40_octets_count_refuted",
    "C40_bits_overrun_refuted",
    "C40_bits_text_refuted",
    "C40_oid_refuted",
    "C40_enumerated_refuted",
    "C40_header_refuted",
    "C40_real_infinity_refuted",
    "C40_real_small_refuted"
   ],
   "note": "Integers, booleans, enumerated values, NULL, strings without '<', octet strings of at most 511 octets and bit strings of at most 2047 bits round trip in a zeroed buffer; the encoders stay inside the buffer and the decoders are safe on any bytes (glibc; no attributes where none are expected). Refuted: escaping of '<', attributes, long octet and bit strings, object identifiers, non-numerals accepted, overruns. Texts of reals are not modelled beyond the scaling loops of Double2String."
  },
  {
   "property": "C41",
   "status": "partial",
   "theorems": [
    "C41_refuted",
    "C41_ub_refuted",
    "C41_octets_refuted"
   ],
   "note": "False (C41_refuted, C41_ub_refuted, C41_octets_refuted)."
  },
  {
   "property": "C42",
   "status": "partial",
   "theorems": [
    "C42_ReadBit",
    "C42_ReadByte",
    "C42_ReadPartialByte",
    "C42_DecodeOctetString_no_length",
    "C42_DecodeSemiConstraintWholeNumber",
    "C42_DecodeSemiConstraintPosWholeNumber",
    "C42_DecodeOctetString_fragmentation",
    "C42_DecodeBitString",
    "C42_truncated",
    "C42_DecodeUnConstraintWholeNumber_refuted",
    "C42_ObjectIdentifier_uper_decode",
    "C42_RelativeOID_uper_decode",
    "C42_uper",
    "C42_uper_truncated",
    "C42_octets_refuted",
    "C42_containing_refuted"
   ],
   "note": "Proved for each decoder named and for generated decoders of strict types; false for the unconstrained integer decoder with length octet 0, for DecodeOctetString (C11_octets_refuted), and for the generated code using it (C42_octets_refuted, C42_containing_refuted)."
  },
  {
   "property": "C43",
   "status": "proved",
   "theorems": [
    "C43_DecodeConstraintWholeNumber",
    "C43_DecodeConstraintPosWholeNumber",
    "C43_ReadBits",
    "C43_semi_refuted"
   ],
   "note": "C43_semi_refuted shows the length-prefixed integer encodings are not canonical."
  },
  {
   "property": "C44",
   "status": "proved",
   "theorems": [
    "C44_OctetString_equal",
    "C44_BitString_equal",
    "C44_ObjectIdentifier_equal"
   ],
   "note": ""
  },
  {
   "property": "C45",
   "status": "partial",
   "theorems": [
    "C45_empty_refuted",
    "C45_unterminated_refuted",
    "C45_overflow_refuted",
    "C45_padded_refuted",
    "C45_invalid_refuted"
   ],
   "note": "False (five C45_*_refuted witnesses). C42_* proves the announced octets are exactly those consumed."
  },
  {
   "property": "C46",
   "status": "proved",
   "theorems": [
    "C46_nbits",
    "C46_octet",
    "C46_big_endian",
    "C46_little_endian",
    "C46_length",
    "C46_twos_nbits",
    "C46_twos_octet",
    "C46_twos_big_endian",
    "C46_twos_little_endian",
    "C46_twos_length",
    "C46_BCD",
    "C46_BCD_length",
    "C46_BCD_terminated",
    "C46_text",
    "C46_signed_text",
    "C46_text_length",
    "C46_signed_text_length",
    "C46_text_terminated",
    "C46_signed_text_terminated",
    "C46_pattern",
    "C46_ignore",
    "C46_true_false",
    "C46_string",
    "C46_string_external",
    "C46_string_internal",
    "C46_index",
    "C46_index_external",
    "C46_index_internal",
    "C46_string_terminated",
    "C46_string_terminated_mult",
    "C46_real_big_endian",
    "C46_real_little_endian",
    "C46_tame_nbits",
    "C46_tame_octet",
    "C46_tame_big_endian",
    "C46_tame_little_endian",
    "C46_tame_length",
    "C46_tame_twos_nbits",
    "C46_tame_twos_octet",
    "C46_tame_twos_big_endian",
    "C46_tame_twos_little_endian",
    "C46_tame_twos_length",
    "C46_tame_BCD",
    "C46_tame_BCD_length",
    "C46_tame_BCD_terminated",
    "C46_tame_text",
    "C46_tame_signed_text",
    "C46_tame_text_length",
    "C46_tame_signed_text_length",
    "C46_tame_text_terminated",
    "C46_tame_signed_text_terminated",
    "C46_tame_pattern",
    "C46_tame_ignore",
    "C46_tame_true_false",
    "C46_tame_string",
    "C46_tame_string_internal",
    "C46_tame_index",
    "C46_tame_index_internal",
    "C46_tame_string_terminated",
    "C46_tame_string_terminated_mult",
    "C46_tame_real_big_endian",
    "C46_tame_real_little_endian",
    "C46_tame_narrow",
    "C46_tame_narrow_signed"
   ],
   "note": "Preconditions stated per decoder: text decoders need NDEBUG (their asserts abort) and, when signed, wrapping negation; the n-bit two's complement decoder defined shifts of negative numbers; the multi-byte terminator decoder an array of max+2 (see C20_overflow_refuted)."
  },
  {
   "property": "C47",
   "status": "proved",
   "theorems": [
    "C47_nbits",
    "C47_twos_octet",
    "C47_big_endian",
    "C47_little_endian",
    "C47_twos_big_endian",
    "C47_twos_little_endian",
    "C47_length",
    "C47_twos_length",
    "C47_twos_nbits",
    "C47_BCD",
    "C47_BCD_length",
    "C47_BCD_terminated",
    "C47_text",
    "C47_signed_text",
    "C47_text_length",
    "C47_signed_text_length",
    "C47_text_terminated",
    "C47_signed_text_terminated",
    "C47_pattern",
    "C47_ignore",
    "C47_true_false",
    "C47_string",
    "C47_index",
    "C47_string_internal",
    "C47_index_internal",
    "C47_string_terminated",
    "C47_string_terminated_mult",
    "C47_string_terminated_mult_long",
    "C47_real_big_endian",
    "C47_real_little_endian"
   ],
   "note": "For all ACN decoders modelled; index strings need an alphabet without repetitions."
  },
  {
   "property": "C48",
   "status": "partial",
   "theorems": [
    "C48_exact",
    "C48_constraint",
    "C48_integer",
    "C48_size",
    "C48_negative_refuted",
    "C48_except_refuted",
    "C48_fixed_refuted",
    "C48_union_refuted",
    "C48_optional_union_refuted",
    "C48_full_refuted",
    "C48_single_value_refuted"
   ],
   "note": "C48_exact for types of any depth under the conditions of ValidSpec.v; outside them the statement is false, as shown by the _refuted theorems: negative bounds with unsigned C types, SIZE of types of fixed size under EXCEPT, unions of WITH COMPONENT(S), WITH COMPONENTS without '...', single values of structured types."
  },
  {
   "property": "C49",
   "status": "partial",
   "theorems": [
    "C49_document",
    "C49_encode",
    "C49_decode",
    "C49_round_trip",
    "C49_unambiguous",
    "C49_safe",
    "C49_integer_refuted",
    "C49_enumerated_refuted",
    "C49_choice_refuted",
    "C49_items_refuted",
    "C49_fixed_refuted",
    "C49_length_refuted",
    "C49_string_refuted",
    "C49_escape_refuted",
    "C49_oid_refuted",
    "C49_bits_refuted"
   ],
   "note": "All modelled types: document written exactly, read back with any white space, unambiguous, decoder total on any bytes. Not modelled: REAL, TIME, narrow integer types, pErrCode. Restrictions on types and the failures outside them are the refuted theorems: INTEGER check hides failures, unknown ENUMERATED names and CHOICE alternatives accepted, fixed sizes unchecked, strings in a function of their own cut at 7 characters, '<' not escaped, BIT STRING overrun, OBJECT IDENTIFIER unreadable."
  },
  {
   "property": "C50",
   "status": "partial",
   "theorems": [
    "C50_required",
    "C50_enough",
    "C50_enumerated_refuted",
    "C50_oid_refuted",
    "C50_alias_refuted",
    "C50_white_refuted"
   ],
   "note": "Proved for types meeting roomy; refuted for OBJECT IDENTIFIER, for ENUMERATED with a long name that does not sort last, for lists of an alias of a CHOICE, and with white space. REAL and TIME not modelled."
  },
  {
   "property": "C51",
   "status": "partial",
   "theorems": [
    "C51_encode",
    "C51_decode",
    "C51_round_trip",
    "C51_checked",
    "C51_disagree",
    "C51_functional",
    "C51_unique",
    "C51_mapping_refuted",
    "C51_unused_refuted",
    "C51_terminator_refuted",
    "C51_nested_refuted",
    "C51_encode_values_refuted"
   ],
   "note": "For values that the ACN rules can encode (relation encodes of AcnGenSpec.v). Refuted where those conditions fail: mapping function on 16 bit two's complement big endian, determinants without present consumer, terminators inside contents, nested terminated lists, encode-values of efficient enumerations."
  },
  {
   "property": "C52",
   "status": "proved",
   "theorems": [
    "C52_max",
    "C52_buffer"
   ],
   "note": ""
  },
  {
   "property": "C53",
   "status": "partial",
   "theorems": [
    "C53_min_partial",
    "C53_refuted"
   ],
   "note": "Missing: lists without size property whose items have several sizes, for which it is refuted."
  },
  {
   "property": "C54",
   "status": "partial",
   "theorems": [
    "C54_safe",
    "C54_type_assignment",
    "C54_assert_refuted",
    "C54_length_refuted",
    "C54_negative_refuted",
    "C54_items_refuted",
    "C54_string_refuted",
    "C54_alignment_refuted"
   ],
   "note": "holds for sturdy types; refuted for length fields whose test is left out, negative lengths, terminated strings, word alignment and with asserts enabled"
  },
  {
   "property": "C55",
   "status": "partial",
   "theorems": [
    "C55_prefix",
    "C55_firm",
    "C55_type_assignment",
    "C55_truncated",
    "C55_truncated_firm",
    "C55_real_refuted",
    "C55_terminator_refuted",
    "C55_nested_refuted",
    "C55_octets_refuted",
    "C55_negative_refuted"
   ],
   "note": "Proved for tight types (strict uPER parts, lengths whose flag is kept, items of terminated lists without terminators of their own, alignment only to octets), for results without unset contents, and unconditionally for firm types; the excluded cases are refuted by witnesses."
  },
  {
   "property": "C56",
   "status": "partial",
   "theorems": [
    "C56_valid",
    "C56_zero",
    "C56_integer",
    "C56_integer_or_zero",
    "C56_default",
    "C56_with_component_refuted",
    "C56_except_refuted",
    "C56_single_value_refuted",
    "C56_size_refuted",
    "C56_string_refuted",
    "C56_oid_refuted",
    "C56_choice_refuted",
    "C56_reference_refuted",
    "C56_default_refuted",
    "C56_constant_refuted"
   ],
   "note": "Proved for the types of InitSpec.ready; EXCEPT, single-value exclusions, sizes with holes, OBJECT IDENTIFIER, CHOICE with ABSENT alternatives, WITH COMPONENT inside unions, references with WITH COMPONENTS and variable-size BIT STRING defaults are refuted by witnesses."
  },
  {
   "property": "C57",
   "status": "partial",
   "theorems": [
    "C57_exact",
    "C57_same",
    "C57_reflexive",
    "C57_symmetric",
    "C57_real",
    "C57_real_refuted",
    "C57_nan_refuted",
    "C57_default_refuted",
    "C57_reference_refuted",
    "C57_bounds_refuted"
   ],
   "note": "Exact for types without REAL whose named functions are those of types with the same layout; with REAL up to Asn1Real_Equal. DEFAULT components, fixed-size subtypes of variable-size types, NaN and transitivity on REAL are refuted by witnesses. TIME types are not modelled."
  },
  {
   "property": "C58",
   "status": "partial",
   "theorems": [
    "C58_only",
    "C58_reencode",
    "C58_one_form",
    "C58_exact",
    "C58_nul_refuted",
    "C58_octets_refuted",
    "C58_semi_refuted",
    "C58_integer_refuted",
    "C58_extension_refuted",
    "C58_oid_refuted",
    "C58_real_refuted",
    "C58_length_refuted",
    "C58_absent_refuted",
    "C58_present_refuted",
    "C58_containing_refuted"
   ],
   "note": "Proved for UperCanon.canonical; for each excluded constructor a witness shows an accepted bit string that is not an encoding (NUL in strings, OCTET STRING lengths, leading zeros of INTEGER, OID and REAL, extension form of root values, two-octet lengths, ABSENT and PRESENT bits, CONTAINING)."
  },
  {
   "property": "C59",
   "status": "partial",
   "theorems": [
    "C59_only",
    "C59_reencode",
    "C59_one_form",
    "C59_exact",
    "C59_padding_refuted",
    "C59_boolean_refuted",
    "C59_null_refuted",
    "C59_bcd_refuted",
    "C59_text_refuted",
    "C59_wrap_refuted",
    "C59_narrow_refuted",
    "C59_leading_refuted",
    "C59_nul_refuted",
    "C59_octets_refuted",
    "C59_length_refuted",
    "C59_nan_refuted",
    "C59_short_refuted",
    "C59_unused_refuted"
   ],
   "note": "Proved for AcnCanon.exact and results that pass AcnCanon.whole; for the excluded constructors witnesses show accepted bit strings that are not encodings (alignment padding, one-pattern BOOLEAN, skipped NULL pattern, BCD nibbles, signed text, wrapping and narrowed integers, leading zeros, NUL in strings, OCTET STRING lengths, untested minimal sizes), and that whole (NaN, short strings) and served (unused determinants) are needed."
  },
  {
   "property": "C60",
   "status": "partial",
   "theorems": [
    "C60_integer",
    "C60_enumerated",
    "C60_size",
    "C60_exact",
    "C60_declared",
    "C60_pattern",
    "C60_text_refuted",
    "C60_unsigned_text_refuted",
    "C60_terminator_refuted",
    "C60_bcd_refuted",
    "C60_size_type_refuted",
    "C60_size_width_refuted",
    "C60_enum_refuted",
    "C60_word_refuted"
   ],
   "note": "Proved outside open_case; witnesses show accepted encodings that do not hold the range: the lower limit of fixed size text, digit or empty terminators, BCD with a terminator for negative values, unchecked size determinants and encode-values of the uPER class, slim variables too small for a size determinant, word size 4; unsigned text is checked as signed text. Mapping functions skip the check and are not modelled; REAL, string and CHOICE classes are not covered."
  },
  {
   "property": "C61",
   "status": "proved",
   "theorems": [
    "C61_total",
    "C61_sorted",
    "C61_complete",
    "C61_reported",
    "C61_header",
    "C61_split_refuted",
    "C61_cycle_refuted",
    "C61_duplicate_refuted"
   ],
   "note": "Model of the sort, of the callers' split of the nodes and of sortTypes for C; names are compared by an equality (StringLoc compares its value only)."
  },
  {
   "property": "C62",
   "status": "partial",
   "theorems": [
    "C62_values",
    "C62_codes",
    "C62_table",
    "C62_plain",
    "C62_wire",
    "C62_order_refuted",
    "C62_codes_refuted",
    "C62_mixed_refuted"
   ],
   "note": "Proved without constraints on the items. Witnesses: with the switch (the default) items that are not declared in ascending order get the wrong uPER index, and option -eee changes the bits; encode-values accepts equal codes for two items."
  },
  {
   "property": "C63",
   "status": "partial",
   "theorems": [
    "C63_choice",
    "C63_automatic",
    "C63_converse",
    "C63_set",
    "C63_choice_refuted",
    "C63_tag_refuted",
    "C63_set_refuted"
   ],
   "note": "Tags are dropped by the compiler. Proved for types whose tags ascend; witnesses show the wrong index for CHOICE {a INTEGER, b BOOLEAN} without AUTOMATIC TAGS, for written tags in descending order, and the wrong order of SET components. Components of SET: mandatory ones only."
  },
  {
   "property": "C64",
   "status": "partial",
   "theorems": [
    "C64_text",
    "C64_total",
    "C64_path",
    "C64_single",
    "C64_nested",
    "C64_typed",
    "C64_rules",
    "C64_present",
    "C64_fits",
    "C64_accepts",
    "C64_round_trip",
    "C64_detects",
    "C64_flag_refuted",
    "C64_order_refuted",
    "C64_path_refuted",
    "C64_constant_refuted",
    "C64_boolean_refuted",
    "C64_modulo_refuted",
    "C64_unsigned_refuted",
    "C64_overflow_refuted",
    "C64_literal_refuted"
   ],
   "note": "REAL operands are modelled in the check and the text, not in the value. Refuted with witnesses: a flag 'present' against an expression 'absent' is encoded silently when encoding the component assigns ret; expressions may look at later components, which the decoder has not yet read; nested components cannot be referenced and superfluous names are ignored; named constants are printed as the empty text; non-BOOLEAN expressions and modulo of REAL are accepted; unsigned comparison, overflow, division by zero and constants from 2^63 on."
  },
  {
   "property": "C65",
   "status": "partial",
   "theorems": [
    "C65_unique",
    "C65_ends",
    "C65_ends_choices",
    "C65_prefixed",
    "C65_call",
    "C65_call_choices",
    "C65_fails",
    "C65_fails_choices",
    "C65_two_calls",
    "C65_kept",
    "C65_alike",
    "C65_alike_choices",
    "C65_values_refuted",
    "C65_deleted_refuted",
    "C65_nested_refuted",
    "C65_constant_refuted",
    "C65_present_refuted",
    "C65_keyword_refuted",
    "C65_refused_refuted"
   ],
   "note": "Names are ASCII; field prefixes, AlwaysPrefixTypeName and the Ada and Scala names are not modelled. Refuted with witnesses: two modules with a value of the same name make the compiler run forever, as do, with AllEnumerants, names that contain one another and nested CHOICEs; an enumerator may coincide with the constant of a value, with the name of an alternative or with a keyword of C99; correct grammars are refused if a name contains all parts of its path."
  },
  {
   "property": "C66",
   "status": "partial",
   "theorems": [
    "C66_constants",
    "C66_unambiguous",
    "C66_bits",
    "C66_bits_refuted",
    "C66_quotes",
    "C66_quotes_refuted",
    "C66_quotes_dropped",
    "C66_backslash_refuted",
    "C66_absent_refuted",
    "C66_empty_refuted",
    "C66_subtype_refuted",
    "C66_arc_refuted",
    "C66_exist_refuted",
    "C66_word"
   ],
   "note": "REAL and TIME values, bit strings for OCTET STRING and byte strings for BIT STRING are not modelled. Refuted with witnesses: a BIT STRING in a type with nCount gets the number of bytes as number of bits (right exactly for at most one bit), quotes in strings are dropped (right exactly without quotes), backslashes are not escaped, a SEQUENCE whose components are all OPTIONAL and absent gives a syntax error, empty values give empty braces, values of fixed size subtypes of variable size types are stored in the wrong members, arcs of 2^63 and more have no type, a component named exist collides with the presence bits."
  },
  {
   "property": "C67",
   "status": "partial",
   "theorems": [
    "C67_same_meaning",
    "C67_same_type",
    "C67_no_parameters",
    "C67_same_names",
    "C67_meaning_exists",
    "C67_meaning_unique",
    "C67_returns",
    "C67_extensible_refuted",
    "C67_contained_refuted",
    "C67_components_of_refuted",
    "C67_inclusion_refuted",
    "C67_inner_argument_refuted",
    "C67_passed_value_refuted",
    "C67_nested_refuted",
    "C67_capture_refuted",
    "C67_item_refuted",
    "C67_bound_refuted",
    "C67_constrained_argument_refuted"
   ],
   "note": "Proved for grammars without cycles in which parameters are named only where the code replaces them (hygienic) and constraints are not extensible. Implicit imports, the merge of ACN specifications, locations, units and REAL, BIT STRING, OCTET STRING, NULL and OBJECT IDENTIFIER values are not modelled. Refuted with witnesses: extensible constraints make the pass run forever, CONTAINING a parameter loses the container, COMPONENTS OF, inclusions and inner actual parameters keep the parameter, parameterized types within actual parameters stay, values and items named like a parameter are captured, a parameter constrained by a named value is refused, the constraint of a parameter given as actual parameter is dropped."
  },
  {
   "property": "C68",
   "status": "partial",
   "theorems": [
    "C68_fits_partial",
    "C68_notation",
    "C68_one_meaning",
    "C68_equality",
    "C68_constraint",
    "C68_accepts_partial",
    "C68_conforms_partial",
    "C68_names_refuted",
    "C68_modules_refuted",
    "C68_enumerated_refuted",
    "C68_optional_refuted",
    "C68_inclusion_refuted",
    "C68_inner_size_refuted",
    "C68_alphabet_refuted",
    "C68_alphabet_except_refuted",
    "C68_named_sequence_refuted",
    "C68_order_refuted",
    "C68_choice_refuted",
    "C68_real_refuted",
    "C68_cycle_refuted",
    "C68_mixed",
    "C68_string_order",
    "C68_unknown_name"
   ],
   "note": "Proved for values written without names of values, in the notation of their type, and for constraints in the fragment tame; that a notation fits its type is proved for all notations, order and repetition of SEQUENCE components apart. OBJECT IDENTIFIER and TIME are not modelled, REAL values are rational numbers. Refuted with witnesses: names of values are compared instead of values (also across modules), named ENUMERATED values are refused, OPTIONAL with a constraint refuses the absent component, inclusions check only the last constraints, SIZE of octet strings within inner constraints refuses all, FROM with strings under set operators, components of named SEQUENCE values unchecked, order and repetition of components unchecked, PRESENT in CHOICE ignored, REAL bounds truncated, values naming each other make the check run forever."
  },
  {
   "property": "C69",
   "status": "partial",
   "theorems": [
    "C69_reserve",
    "C69_unique",
    "C69_answers",
    "C69_plain",
    "C69_returns_partial",
    "C69_overflow_refuted",
    "C69_own_name_refuted",
    "C69_functions_refuted",
    "C69_library_refuted",
    "C69_base_refuted",
    "C69_proposed"
   ],
   "note": "Proved for all sequences of registrations: distinct names, no keywords, stable names, plain names kept. That the search for a name ends with an identifier is proved for type prefixes without underscore and numbers that do not overflow. Which registrations a grammar causes (mergeType) is not modelled; all sequences are covered in which the base of a primitive subtype is a type assignment. Refuted with witnesses: the number at the end of a name overflows Int32 and gives a name with a minus sign; a type that alone has a name may be renamed; names of types coincide with names of generated functions and of types of the run-time library."
  },
  {
   "property": "C70",
   "status": "proved",
   "theorems": [
    "C70_components",
    "C70_components_unique",
    "C70_components_alias_refuted",
    "C70_components_cycle_refuted",
    "C70_named_bits",
    "C70_named_bit_lost_refuted",
    "C70_no_bits_refuted",
    "C70_size_zero_refuted",
    "C70_size_of_reference_refuted",
    "C70_values",
    "C70_values_resolved",
    "C70_enum_names_refuted",
    "C70_string_names_refuted"
   ],
   "note": "COMPONENTS OF and named bits are characterized exactly. Values: proved for grammars whose names of values are used with the type they are declared with, whose names of ENUMERATED values are of the module of the type, and whose named bits are within the size. Refuted with witnesses: a name of an ENUMERATED value is looked up in the wrong module and gives another value; a named bit beyond the size is lost; { } is refused for BIT STRING; COMPONENTS OF an alias is refused and a cyclic one never ends; SIZE(0) wraps around; a size on a reference is ignored; names are refused within strings in parts."
  },
  {
   "property": "C71",
   "status": "partial",
   "theorems": [
    "C71_read_written",
    "C71_read_exact",
    "C71_read_in_range",
    "C71_not_written_refuted",
    "C71_extra_parts_refuted",
    "C71_calendar_refuted",
    "C71_precision_refuted",
    "C71_crash_exact",
    "C71_cut_date_refuted",
    "C71_print_exact",
    "C71_print_zeros_refuted",
    "C71_print_fraction_refuted",
    "C71_print_date_time_refuted"
   ],
   "note": "Proved without bounds: all texts of the standard are read as what they mean; the texts that are read, those that end in an unexpected exception, and the values whose printed text is read back are characterized exactly. The rest of the claim is false and refuted with witnesses: parts after a date or a fraction are ignored, zones may hold blanks and signs, 31 February is read, the precision of the type is ignored, a date without day or month ends in an exception, leading zeros are not printed, and a date with a time is printed without the T."
  },
  {
   "property": "C72",
   "status": "partial",
   "theorems": [
    "C72_words",
    "C72_combinations",
    "C72_exact",
    "C72_blanks_refuted",
    "C72_line_end_refuted",
    "C72_precision",
    "C72_fraction_refuted",
    "C72_fraction_first_refuted"
   ],
   "note": "Proved without bounds: the settings of every class without a fraction are read as the class in any order and with any blanks, and the texts that are read are characterized exactly. False, with witnesses: fractions (every text with HMSFn, any n, ends in an exception, or in a refusal if it stands first), line ends between settings are refused, blanks within words are ignored."
  },
  {
   "property": "C73",
   "status": "partial",
   "theorems": [
    "C73_check_exact",
    "C73_accepted_exact",
    "C73_accepted_names",
    "C73_plain_names",
    "C73_imports",
    "C73_lookup",
    "C73_private_refuted",
    "C73_external_refuted",
    "C73_module_name_refuted",
    "C73_reexport_refuted",
    "C73_export_refuted",
    "C73_mutual_refuted",
    "C73_missing_module_refuted",
    "C73_second_clause_refuted",
    "C73_endless_refuted"
   ],
   "note": "Proved without bounds: the accepted sets of modules are characterized exactly, as are the imports added by the front end and the search for a type in accepted modules. False, with witnesses: a module with an EXPORTS list cannot use its private types, M.T is refused beside another T, the name of a module imported from hides a type of that name, imported types cannot be exported again, EXPORTS may list undefined names, mutual imports are refused, a missing module is reported as a cycle, one of two clauses for a module is dropped."
  },
  {
   "property": "C74",
   "status": "partial",
   "theorems": [
    "C74_exact",
    "C74_stable",
    "C74_compatible_exact",
    "C74_self",
    "C74_enum_refuted",
    "C74_sequence_refuted",
    "C74_present_refuted",
    "C74_order_refuted",
    "C74_alphabet_refuted"
   ],
   "note": "Proved without bounds: the accepted constraints and the types taken as compatible are characterized exactly, the answer does not depend on the depth of the recursion, and a type may be constrained to itself. False, with witnesses: ENUMERATED types with the same number of items are compatible whatever their items, SEQUENCE and CHOICE types only if they are one definition; two alternatives may be PRESENT, the ends of a range in the wrong order, SIZE and FROM within FROM."
  },
  {
   "property": "C75",
   "status": "partial",
   "theorems": [
    "C75_exact",
    "C75_ada_words",
    "C75_distinct",
    "C75_user_distinct",
    "C75_auto_renamed",
    "C75_auto_keywords",
    "C75_auto_ends",
    "C75_auto_total",
    "C75_auto_distinct_partial",
    "C75_read",
    "C75_auto_refuted",
    "C75_user_refuted",
    "C75_user_makes_keyword_refuted",
    "C75_c99_refuted",
    "C75_module_refuted",
    "C75_case_refuted"
   ],
   "note": "Proved without bounds: what is accepted, exactly; distinct names without a prefix and with a prefix of the user; no keywords without a prefix and with AUTO; AUTO renames keywords only, ends after two rounds and raises nothing; with AUTO distinct names if there are no hyphens. False, with witnesses: distinct names with AUTO and hyphens, no keywords with a prefix of the user, inline and restrict, modules with hyphens, and names that differ in case only."
  },
  {
   "property": "C76",
   "status": "partial",
   "theorems": [
    "C76_same",
    "C76_call",
    "C76_exact",
    "C76_reflexive",
    "C76_references",
    "C76_oid_refuted",
    "C76_complete_refuted"
   ],
   "note": "Proved without bounds: equivalent types are both refused or have the same encodings and decoded values, the call of the functions of the one encodes and decodes as the other, reflexivity without OBJECT IDENTIFIER, references do not matter. False, with witnesses: reflexivity for OBJECT IDENTIFIER, and that types with the same encodings are found equivalent. Not modelled: TIME types, tags, CONTAINING, calls of validity functions."
  }
 ]
}