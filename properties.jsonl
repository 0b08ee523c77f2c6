{"id": "C01", "title": "Any history of bit-stream writes is read back unchanged", "statement": "Start from an initialised (zeroed) bit stream. After any sequence of appends (single bits, runs of zeros or ones, whole bytes, partial bytes, byte arrays, bit arrays) whose total size fits in the buffer, the buffer holds exactly the concatenation of the appended bits, most significant bit first, followed by zeros; the reported length is the number of bits rounded up to bytes; and replaying the matching sequence of reads returns the appended items in order and leaves the cursor at the same position.", "quantifier": "every finite sequence of append operations and operand values, every starting bit offset, every buffer size that is large enough", "why_tests_cant": "The number of operation sequences and of bit offsets at which byte-straddling happens is unbounded; tests sample a few alignments.", "anchors": ["asn1crt/asn1crt_encoding.c:BitStream_Init", "asn1crt/asn1crt_encoding.c:BitStream_AppendBit", "asn1crt/asn1crt_encoding.c:BitStream_AppendNBitZero", "asn1crt/asn1crt_encoding.c:BitStream_AppendNBitOne", "asn1crt/asn1crt_encoding.c:BitStream_AppendByte", "asn1crt/asn1crt_encoding.c:BitStream_AppendPartialByte", "asn1crt/asn1crt_encoding.c:BitStream_AppendByteArray", "asn1crt/asn1crt_encoding.c:BitStream_AppendBits", "asn1crt/asn1crt_encoding.c:BitStream_ReadBit", "asn1crt/asn1crt_encoding.c:BitStream_ReadByte", "asn1crt/asn1crt_encoding.c:BitStream_ReadPartialByte", "asn1crt/asn1crt_encoding.c:BitStream_ReadBits", "asn1crt/asn1crt_encoding.c:BitStream_GetLength"]}
{"id": "C02", "title": "Constrained signed INTEGER: exact width and round trip", "statement": "Encoding v with bounds min <= v <= max appends exactly ceil(log2(max-min+1)) bits, the big-endian binary form of v-min, and decoding with the same bounds returns v and consumes exactly those bits, at any bit offset and with anything after them. This holds whenever max-min is representable in int64, and for every range when signed overflow wraps (gcc -fwrapv).", "quantifier": "every min, max, v in int64 with min<=v<=max, every bit offset, every following content", "why_tests_cant": "The value space is 2^192 triples and the encoder splits the value into 32-bit halves and partial bytes depending on magnitude and alignment.", "anchors": ["asn1crt/asn1crt_encoding.c:BitStream_EncodeConstraintWholeNumber", "asn1crt/asn1crt_encoding.c:BitStream_DecodeConstraintWholeNumber", "asn1crt/asn1crt_encoding.c:BitStream_EncodeNonNegativeInteger", "asn1crt/asn1crt_encoding.c:BitStream_DecodeNonNegativeInteger", "asn1crt/asn1crt_encoding.c:GetNumberOfBitsForNonNegativeInteger"]}
{"id": "C03", "title": "Constrained unsigned INTEGER: exact width and round trip", "statement": "Same as C02 for the unsigned entry points, for all 0 <= min <= v <= max < 2^64, including the narrow-typed (8/16/32-bit) decoders when the bounds fit the narrow type.", "quantifier": "every uint64 min, v, max with min<=v<=max, every bit offset and following content", "why_tests_cant": "2^192 inputs; the 64-bit range edge cases differ from the signed ones.", "anchors": ["asn1crt/asn1crt_encoding.c:BitStream_EncodeConstraintPosWholeNumber", "asn1crt/asn1crt_encoding.c:BitStream_DecodeConstraintPosWholeNumber", "asn1crt/asn1crt_encoding.c:BitStream_DecodeConstraintPosWholeNumberUInt8", "asn1crt/asn1crt_encoding.c:BitStream_DecodeConstraintWholeNumberInt8"]}
{"id": "C04", "title": "Semi-constrained INTEGER round trip with minimal length", "statement": "Encoding v >= min appends one length octet L followed by the L-octet big-endian form of v-min where L is the least number of octets (at least 1) holding v-min; decoding returns v and consumes exactly 8*(L+1) bits. (Signed entry point: whenever v-min is representable, and for all values when signed overflow and left shift wrap.)", "quantifier": "every v and min of the 64-bit type with v>=min, every bit offset", "why_tests_cant": "2^128 inputs with data-dependent length.", "anchors": ["asn1crt/asn1crt_encoding.c:BitStream_EncodeSemiConstraintWholeNumber", "asn1crt/asn1crt_encoding.c:BitStream_DecodeSemiConstraintWholeNumber", "asn1crt/asn1crt_encoding.c:BitStream_EncodeSemiConstraintPosWholeNumber", "asn1crt/asn1crt_encoding.c:BitStream_DecodeSemiConstraintPosWholeNumber", "asn1crt/asn1crt_encoding.c:GetLengthInBytesOfUInt"]}
{"id": "C05", "title": "Unconstrained INTEGER round trip, minimal two's complement", "statement": "Encoding any representable v appends one length octet L and the L-octet two's-complement form of v, with L minimal (1..8); decoding returns v and consumes exactly those bits. (For negative values on a compiler where left shift of a negative value wraps, and for INT64_MIN where negation wraps.)", "quantifier": "every int64 v, every bit offset", "why_tests_cant": "2^64 values; the negative path complements the two 32-bit halves differently (the source marks a 'bug' there).", "anchors": ["asn1crt/asn1crt_encoding.c:BitStream_EncodeUnConstraintWholeNumber", "asn1crt/asn1crt_encoding.c:BitStream_DecodeUnConstraintWholeNumber", "asn1crt/asn1crt_encoding.c:BitStream_EncodeNonNegativeIntegerNeg", "asn1crt/asn1crt_encoding.c:GetLengthInBytesOfSInt"]}
{"id": "C06", "title": "Constrained decoders never yield an out-of-range value", "statement": "For arbitrary (hostile) input bits, if a constrained-integer decoder reports success then the value it returned lies within [min,max]; otherwise it reports failure.", "quantifier": "every buffer content, cursor position and bounds", "why_tests_cant": "The input space is all byte strings.", "anchors": ["asn1crt/asn1crt_encoding.c:BitStream_DecodeConstraintWholeNumber", "asn1crt/asn1crt_encoding.c:BitStream_DecodeConstraintPosWholeNumber"]}
{"id": "C07", "title": "Decoders are read-only, monotone and never succeed past the end", "statement": "No decoder modifies the input buffer or its size, no decoder moves the cursor backwards, and when a decoder reports success the cursor is at or before the end of the declared data.", "quantifier": "every decoder, every buffer content and cursor position", "why_tests_cant": "Requires all inputs; a test only sees particular buffers.", "anchors": ["asn1crt/asn1crt_encoding.c:BitStream_ReadBit", "asn1crt/asn1crt_encoding.c:BitStream_ReadByte", "asn1crt/asn1crt_encoding.c:BitStream_ReadPartialByte", "asn1crt/asn1crt_encoding.c:BitStream_ReadBits", "asn1crt/asn1crt_encoding.c:BitStream_DecodeUnConstraintWholeNumber", "asn1crt/asn1crt_encoding.c:BitStream_DecodeReal", "asn1crt/asn1crt_encoding.c:BitStream_DecodeOctetString"]}
{"id": "C08", "title": "Decoders are memory safe on arbitrary input", "statement": "On any input of any length a decoder performs no read outside the caller's buffer and no other undefined operation; it terminates with success or failure.", "quantifier": "every byte string (any length, any content), every cursor position inside it, every decoder", "why_tests_cant": "Out-of-bounds reads by one byte do not crash in tests and all inputs must be covered.", "anchors": ["asn1crt/asn1crt_encoding.c:BitStream_ReadBit", "asn1crt/asn1crt_encoding.c:BitStream_ReadPartialByte", "asn1crt/asn1crt_encoding.c:BitStream_PeekBit", "asn1crt/asn1crt_encoding.c:BitStream_ReadByteArray", "asn1crt/asn1crt_encoding.c:BitStream_DecodeNonNegativeInteger", "asn1crt/asn1crt_encoding.c:BitStream_DecodeUnConstraintWholeNumber"]}
{"id": "C09", "title": "OCTET STRING round trip for every size, with fragmentation", "statement": "For any byte string whose length n satisfies the size bounds, the encoder succeeds when the buffer has room, the decoder returns the same n and bytes, and consumes exactly the bits produced; for bounds of 64K or more this includes X.691 fragmentation for arbitrarily long strings.", "quantifier": "every byte string, every size bounds, every bit offset", "why_tests_cant": "Lengths are unbounded and fragmentation behaviour changes at 16K/32K/48K/64K multiples.", "anchors": ["asn1crt/asn1crt_encoding.c:BitStream_EncodeOctetString", "asn1crt/asn1crt_encoding.c:BitStream_DecodeOctetString", "asn1crt/asn1crt_encoding.c:BitStream_EncodeOctetString_fragmentation", "asn1crt/asn1crt_encoding.c:BitStream_DecodeOctetString_fragmentation", "asn1crt/asn1crt_encoding.c:BitStream_EncodeOctetString_no_length", "asn1crt/asn1crt_encoding.c:BitStream_DecodeOctetString_no_length"]}
{"id": "C10", "title": "BIT STRING round trip for every size, with fragmentation", "statement": "For any bit string whose length satisfies the size bounds, encoding then decoding returns the same number of bits and the same bits (unused trailing bits of the last byte zero), consuming exactly the bits produced.", "quantifier": "every bit string, every size bounds, every bit offset", "why_tests_cant": "Unbounded lengths, all residues modulo 8 and all fragment boundaries.", "anchors": ["asn1crt/asn1crt_encoding.c:BitStream_EncodeBitString", "asn1crt/asn1crt_encoding.c:BitStream_DecodeBitString", "asn1crt/asn1crt_encoding.c:BitStream_AppendBits", "asn1crt/asn1crt_encoding.c:BitStream_ReadBits"]}
{"id": "C11", "title": "A truncated string is reported as a decoding failure", "statement": "If fewer bits remain than the decoded length calls for, the octet/bit string decoder reports failure.", "quantifier": "every truncation point of every encoded string", "why_tests_cant": "Every prefix of every encoding has to be considered.", "anchors": ["asn1crt/asn1crt_encoding.c:BitStream_DecodeOctetString", "asn1crt/asn1crt_encoding.c:BitStream_DecodeOctetString_no_length", "asn1crt/asn1crt_encoding.c:BitStream_DecodeBitString"]}
{"id": "C12", "title": "REAL round trip", "statement": "Encoding a double and decoding it returns the same double: bit-identical for finite values and infinities, and NaN for NaN.", "quantifier": "every IEEE-754 binary64 value, every bit offset", "why_tests_cant": "2^64 values; scaling by repeated doubling rounds/overflows only for particular exponent ranges.", "anchors": ["asn1crt/asn1crt_encoding.c:BitStream_EncodeReal", "asn1crt/asn1crt_encoding.c:BitStream_DecodeReal", "asn1crt/asn1crt_encoding.c:CalculateMantissaAndExponent", "asn1crt/asn1crt_encoding.c:GetDoubleByMantissaAndExp", "asn1crt/asn1crt_encoding.c:DecodeRealAsBinaryEncoding"]}
{"id": "C13", "title": "Bit-count and byte-count helpers are minimal", "statement": "The number-of-bits helper returns the least n with v < 2^n; the unsigned byte-length helper returns the least L>=1 with v < 256^L; the signed byte-length helper returns the least L>=1 with -2^(8L-1) <= v < 2^(8L-1).", "quantifier": "every 64-bit value", "why_tests_cant": "2^64 values per helper.", "anchors": ["asn1crt/asn1crt_encoding.c:GetNumberOfBitsForNonNegativeInteger", "asn1crt/asn1crt_encoding.c:GetLengthInBytesOfUInt", "asn1crt/asn1crt_encoding.c:GetLengthInBytesOfSInt"]}
{"id": "C14", "title": "OBJECT IDENTIFIER round trip", "statement": "Every object identifier accepted by the validity predicate, and every non-empty relative OID, with up to 20 arcs of up to 64 bits, is decoded from its encoding with the same arcs, consuming exactly the bits produced.", "quantifier": "every arc count 2..20 (1..20 relative), every 64-bit arc value, every bit offset", "why_tests_cant": "Arc values up to 2^64 with base-128 chunking.", "anchors": ["asn1crt/asn1crt_encoding_uper.c:ObjectIdentifier_uper_encode", "asn1crt/asn1crt_encoding_uper.c:ObjectIdentifier_uper_decode", "asn1crt/asn1crt_encoding_uper.c:RelativeOID_uper_encode", "asn1crt/asn1crt_encoding_uper.c:RelativeOID_uper_decode", "asn1crt/asn1crt.c:ObjectIdentifier_isValid"]}
{"id": "C15", "title": "ACN fixed-size positive integers: exact bytes and round trip", "statement": "ACN positive integers of n bits, and of 8/16/32/64 bits big- or little-endian, append exactly the specified bits in the specified byte order and decode to the same value, for every value that fits.", "quantifier": "every width, every value that fits, every bit offset", "why_tests_cant": "2^64 values at 8 offsets and 7 layouts.", "anchors": ["asn1crt/asn1crt_encoding_acn.c:Acn_Enc_Int_PositiveInteger_ConstSize", "asn1crt/asn1crt_encoding_acn.c:Acn_Dec_Int_PositiveInteger_ConstSize", "asn1crt/asn1crt_encoding_acn.c:Acn_Enc_Int_PositiveInteger_ConstSize_big_endian_64", "asn1crt/asn1crt_encoding_acn.c:Acn_Enc_Int_PositiveInteger_ConstSize_little_endian_64"]}
{"id": "C16", "title": "ACN two's-complement integers: exact bits and round trip", "statement": "ACN two's-complement integers of n bits, and of 8/16/32/64 bits big- or little-endian, decode to the encoded value for every signed value that fits in the width.", "quantifier": "every width, every signed value that fits, every bit offset", "why_tests_cant": "2^64 values; sign extension depends on the width.", "anchors": ["asn1crt/asn1crt_encoding_acn.c:Acn_Enc_Int_TwosComplement_ConstSize", "asn1crt/asn1crt_encoding_acn.c:Acn_Dec_Int_TwosComplement_ConstSize", "asn1crt/asn1crt_encoding_acn.c:Acn_Enc_Int_TwosComplement_ConstSize_big_endian_64", "asn1crt/asn1crt_encoding_acn.c:Acn_Enc_Int_TwosComplement_ConstSize_little_endian_64"]}
{"id": "C17", "title": "ACN variable-size (length-embedded) integers round trip", "statement": "Length-prefixed ACN positive and two's-complement integers decode to the encoded value and use the least number of octets.", "quantifier": "every 64-bit value, every bit offset", "why_tests_cant": "2^64 values.", "anchors": ["asn1crt/asn1crt_encoding_acn.c:Acn_Enc_Int_PositiveInteger_VarSize_LengthEmbedded", "asn1crt/asn1crt_encoding_acn.c:Acn_Dec_Int_PositiveInteger_VarSize_LengthEmbedded", "asn1crt/asn1crt_encoding_acn.c:Acn_Enc_Int_TwosComplement_VarSize_LengthEmbedded", "asn1crt/asn1crt_encoding_acn.c:Acn_Dec_Int_TwosComplement_VarSize_LengthEmbedded"]}
{"id": "C18", "title": "ACN BCD integers round trip", "statement": "BCD integers (fixed number of nibbles, length-embedded, and null-terminated) decode to the encoded value for every value that fits the format.", "quantifier": "every 64-bit value and nibble count, every bit offset", "why_tests_cant": "2^64 values and data-dependent lengths.", "anchors": ["asn1crt/asn1crt_encoding_acn.c:Acn_Enc_Int_BCD_ConstSize", "asn1crt/asn1crt_encoding_acn.c:Acn_Dec_Int_BCD_ConstSize", "asn1crt/asn1crt_encoding_acn.c:Acn_Enc_Int_BCD_VarSize_LengthEmbedded", "asn1crt/asn1crt_encoding_acn.c:Acn_Dec_Int_BCD_VarSize_LengthEmbedded", "asn1crt/asn1crt_encoding_acn.c:Acn_Enc_Int_BCD_VarSize_NullTerminated", "asn1crt/asn1crt_encoding_acn.c:Acn_Dec_Int_BCD_VarSize_NullTerminated"]}
{"id": "C19", "title": "ACN ASCII integers round trip", "statement": "Signed and unsigned decimal-text integers (fixed size, length-embedded, null-terminated) decode to the encoded value for every value that fits the format.", "quantifier": "every 64-bit value, text width and termination pattern", "why_tests_cant": "2^64 values, unbounded combinations of width and pattern.", "anchors": ["asn1crt/asn1crt_encoding_acn.c:Acn_Enc_SInt_ASCII_ConstSize", "asn1crt/asn1crt_encoding_acn.c:Acn_Dec_SInt_ASCII_ConstSize", "asn1crt/asn1crt_encoding_acn.c:Acn_Enc_UInt_ASCII_VarSize_LengthEmbedded", "asn1crt/asn1crt_encoding_acn.c:Acn_Dec_UInt_ASCII_VarSize_NullTerminated"]}
{"id": "C20", "title": "ACN strings round trip", "statement": "ACN strings (fixed size, null-terminated with one or several terminator bytes, internal or external length field, ASCII or alphabet-index characters) decode to the encoded string and consume exactly the bits produced, and the decoder always returns a zero-terminated buffer of at most the declared size.", "quantifier": "every string over the allowed characters within the size limit, every terminator, every bit offset", "why_tests_cant": "Unbounded strings and terminator patterns, including terminators that partially match the content.", "anchors": ["asn1crt/asn1crt_encoding_acn.c:Acn_Enc_String_Ascii_FixSize", "asn1crt/asn1crt_encoding_acn.c:Acn_Dec_String_Ascii_FixSize", "asn1crt/asn1crt_encoding_acn.c:Acn_Enc_String_Ascii_Null_Terminated", "asn1crt/asn1crt_encoding_acn.c:Acn_Dec_String_Ascii_Null_Terminated", "asn1crt/asn1crt_encoding_acn.c:Acn_Enc_String_Ascii_Null_Terminated_mult", "asn1crt/asn1crt_encoding_acn.c:Acn_Dec_String_Ascii_Null_Terminated_mult", "asn1crt/asn1crt_encoding_acn.c:Acn_Enc_String_CharIndex_External_Field_Determinant"]}
{"id": "C21", "title": "ACN boolean patterns", "statement": "A boolean encoded with a true/false bit pattern of any length is decoded back, and on any input the decoder's verdict is exactly whether the next bits equal the pattern.", "quantifier": "every pattern, every pattern length, every input", "why_tests_cant": "All patterns times all inputs.", "anchors": ["asn1crt/asn1crt_encoding_acn.c:BitStream_ReadBitPattern", "asn1crt/asn1crt_encoding_acn.c:BitStream_ReadBitPattern_ignore_value", "asn1crt/asn1crt_encoding_acn.c:BitStream_DecodeTrueFalseBoolean"]}
{"id": "C22", "title": "ACN alignment", "statement": "Aligning to the next byte, short or int on encoding and decoding moves the cursor to the least multiple of 8/16/32 bits not before it, leaves earlier bits unchanged, and encoder and decoder agree.", "quantifier": "every cursor position and buffer", "why_tests_cant": "All offsets in all buffers.", "anchors": ["asn1crt/asn1crt_encoding_acn.c:Acn_AlignToNextByte", "asn1crt/asn1crt_encoding_acn.c:Acn_AlignToNextWord", "asn1crt/asn1crt_encoding_acn.c:Acn_AlignToNextDWord"]}
{"id": "C23", "title": "Deferred determinants: patch writes only its own field", "statement": "When an ACN determinant's position is saved, skipped, and later patched, the final buffer has the determinant's encoding at the saved position, every other bit unchanged, and the cursor where it was.", "quantifier": "every determinant width, position, value, and every content already encoded after it", "why_tests_cant": "Depends on the bit offset of the field and on all later content.", "anchors": ["asn1crt/asn1crt_encoding_acn.h:AcnBitStreamPos", "asn1crt/asn1crt_encoding_acn.h:DEFINE_ACN_DET_ENCODERS", "asn1crt/asn1crt_encoding_acn.c:Acn_PatchDet_IA5String_FixSize"]}
{"id": "C24", "title": "ACN IEEE-754 reals: exact bytes and round trip", "statement": "A double (or float) encoded as IEEE-754 big- or little-endian decodes to the identical bit pattern.", "quantifier": "every 64-bit (32-bit) pattern, every bit offset", "why_tests_cant": "2^64 patterns.", "anchors": ["asn1crt/asn1crt_encoding_acn.c:Acn_Enc_Real_IEEE754_64_big_endian", "asn1crt/asn1crt_encoding_acn.c:Acn_Dec_Real_IEEE754_64_big_endian", "asn1crt/asn1crt_encoding_acn.c:Acn_Enc_Real_IEEE754_32_little_endian"]}
{"id": "C25", "title": "BER tag and length codecs round trip", "statement": "BER tags and definite lengths decode to what was encoded, consume exactly the bytes produced, and the decoder rejects a different expected tag.", "quantifier": "every tag value and length accepted by the encoder", "why_tests_cant": "2^64 tags, 2^31 lengths.", "anchors": ["asn1crt/asn1crt_encoding_ber.c:BerEncodeTag", "asn1crt/asn1crt_encoding_ber.c:BerDecodeTag", "asn1crt/asn1crt_encoding_ber.c:BerEncodeLengthStart", "asn1crt/asn1crt_encoding_ber.c:BerDecodeLength"]}
{"id": "C26", "title": "BER primitive values round trip", "statement": "BER INTEGER, BOOLEAN, NULL, OCTET STRING, IA5String and BIT STRING values decode to what was encoded.", "quantifier": "every value, tag and buffer with room", "why_tests_cant": "Unbounded values.", "anchors": ["asn1crt/asn1crt_encoding_ber.c:BerEncodeInteger", "asn1crt/asn1crt_encoding_ber.c:BerDecodeInteger", "asn1crt/asn1crt_encoding_ber.c:BerEncodeBoolean", "asn1crt/asn1crt_encoding_ber.c:BerDecodeBoolean", "asn1crt/asn1crt_encoding_ber.c:BerEncodeOctetString", "asn1crt/asn1crt_encoding_ber.c:BerDecodeOctetString"]}
{"id": "C27", "title": "BER byte stream never touches memory outside its buffer", "statement": "Putting or getting a byte at the end of the stream fails without touching memory outside the buffer.", "quantifier": "every stream state", "why_tests_cant": "Off-by-one accesses do not crash in tests.", "anchors": ["asn1crt/asn1crt_encoding_ber.c:ByteStream_PutByte", "asn1crt/asn1crt_encoding_ber.c:ByteStream_GetByte"]}
{"id": "C28", "title": "Signed/unsigned reinterpretation helpers are inverse", "statement": "Converting a signed value to unsigned and back (for any width in bytes that holds it) returns the value.", "quantifier": "every int64 value and byte width 1..8 that can hold it", "why_tests_cant": "2^64 values times widths.", "anchors": ["asn1crt/asn1crt.c:int2uint", "asn1crt/asn1crt.c:uint2int"]}
{"id": "C29", "title": "Table search is correct", "statement": "Binary search over a strictly sorted table returns the index of the value if present and -1 otherwise, never reads outside the table, terminates, and agrees with linear search.", "quantifier": "every sorted table of any size, every value", "why_tests_cant": "Unbounded tables.", "anchors": ["asn1crt/asn1crt.c:binarySearch", "asn1crt/asn1crt.c:linearSearch"]}
{"id": "C30", "title": "Generated uPER codec: round trip for every ASN.1 type and value", "statement": "For every type built from BOOLEAN, NULL, INTEGER (all range kinds), ENUMERATED, REAL, OCTET/BIT STRING, IA5String, OBJECT IDENTIFIER, SEQUENCE (with OPTIONAL and DEFAULT), SEQUENCE OF and CHOICE, nested to any depth, and every valid value, the generated encoder succeeds on a large enough zeroed buffer and the generated decoder returns the same value.", "quantifier": "every type, every valid value, every bit offset", "why_tests_cant": "Both types and values are unbounded; the test-suite covers a fixed set of grammars.", "anchors": ["BackendAst/DAstUPer.fs", "StgC/uper_c.stg"]}
{"id": "C31", "title": "Generated uPER codec produces the X.691 bits", "statement": "The bits appended by the generated encoder are exactly those given by a separate functional specification of unaligned PER for the type and value.", "quantifier": "every type, every valid value", "why_tests_cant": "As C30; interoperability needs bit-exactness, not just self-consistency.", "anchors": ["BackendAst/DAstUPer.fs", "StgC/uper_c.stg"]}
{"id": "C32", "title": "Computed maximum encoding size is an upper bound", "statement": "For every type and valid value the encoding is no longer than the compiler-computed maximum size in bits (from which the *_REQUIRED_BYTES_FOR_ENCODING constant is derived), so a buffer of that size never overflows.", "quantifier": "every type and valid value", "why_tests_cant": "Needs the maximum over all values of all types.", "anchors": ["FrontEndAst/uPER.fs:getSizeableTypeSize", "FrontEndAst/uPER.fs:getRequiredBitsForIntUperEncoding", "FrontEndAst/AcnCreateFromAntlr.fs"]}
{"id": "C33", "title": "Computed minimum encoding size is a lower bound", "statement": "For every type and valid value the encoding is no shorter than the compiler-computed minimum size in bits.", "quantifier": "every type and valid value", "why_tests_cant": "Needs the minimum over all values of all types.", "anchors": ["FrontEndAst/uPER.fs:getSizeableTypeSize", "FrontEndAst/uPER.fs:getRequiredBitsForIntUperEncoding", "FrontEndAst/AcnCreateFromAntlr.fs"]}
{"id": "C34", "title": "uPER encodings are self-delimiting and injective", "statement": "Two values of the same type with the same encoding are equal, no encoding is a proper prefix of another, and decoding ignores and preserves whatever follows, so encodings can be concatenated.", "quantifier": "every type and every pair of valid values, every following content", "why_tests_cant": "Quantifies over pairs of values and over all continuations.", "anchors": ["BackendAst/DAstUPer.fs", "StgC/uper_c.stg"]}
{"id": "C35", "title": "Generated decoders only accept well-formed values and stay inside their arrays", "statement": "On any input, whenever a generated uPER decoder reports success the decoded value satisfies the type's structural limits (counts within SIZE bounds, enumerated/choice index valid, integers within range), and no array element outside the declared bounds is written even on failure.", "quantifier": "every type, every input", "why_tests_cant": "All inputs of all types.", "anchors": ["StgC/uper_c.stg", "BackendAst/DAstUPer.fs"]}
{"id": "C36", "title": "Effective uPER range contains every value allowed by the constraint", "statement": "For any constraint built from single values, ranges, unions, intersections, exclusions and extensions, every integer satisfying the constraint lies in the range the compiler uses for encoding, so that no valid value is mis-encoded.", "quantifier": "every constraint expression of any depth, every integer", "why_tests_cant": "Constraint expressions are unbounded.", "anchors": ["FrontEndAst/uPER.fs:getIntTypeConstraintUperRange", "CommonTypes/CommonTypes.fs:uperUnion", "CommonTypes/CommonTypes.fs:uperIntersection"]}
{"id": "C37", "title": "Effective alphabet contains every character allowed by the constraint", "statement": "For any permitted-alphabet constraint, every character of a valid string is in the alphabet used for encoding, so GetCharIndex never silently substitutes a character.", "quantifier": "every alphabet constraint expression, every character", "why_tests_cant": "Constraint expressions are unbounded.", "anchors": ["FrontEndAst/uPER.fs:getStringConstraintAlphabetUperRange", "asn1crt/asn1crt.c:GetCharIndex"]}
{"id": "C38", "title": "Bit-pattern-terminated bit strings round trip", "statement": "Reading bits up to a terminating pattern returns exactly the bits before the first occurrence of the pattern and consumes the pattern, or fails if it does not occur within the limit.", "quantifier": "every pattern, content, limit and bit offset", "why_tests_cant": "All contents and patterns; partial matches at every offset.", "anchors": ["asn1crt/asn1crt_encoding.c:BitStream_checkBitPatternPresent", "asn1crt/asn1crt_encoding.c:BitStream_ReadBits_nullterminated"]}
{"id": "C39", "title": "Streaming mode is equivalent to one-shot mode", "statement": "With streaming callbacks, the concatenation of the pushed blocks equals the one-shot encoding, for any block size, and decoding with fetched blocks returns the same values.", "quantifier": "every operation sequence, every block size", "why_tests_cant": "Depends on where block boundaries fall in every operation.", "anchors": ["asn1crt/asn1crt_encoding.c:bitstream_push_data_if_required", "asn1crt/asn1crt_encoding.c:bitstream_fetch_data_if_required"]}
{"id": "C40", "title": "XER integer and text leaf codecs round trip", "statement": "The decimal text written for an integer is parsed back to the same integer, and escaped/element text is read back unchanged.", "quantifier": "every 64-bit integer, every element name and value within limits", "why_tests_cant": "2^64 integers, unbounded texts.", "anchors": ["asn1crt/asn1crt_encoding_xer.c:Xer_EncodeInteger", "asn1crt/asn1crt_encoding_xer.c:Xer_DecodeInteger"]}
{"id": "C41", "title": "Encoders never write outside a buffer that is too small", "statement": "When the destination buffer is too small for the value, an encoder reports failure (or stops on an assertion) and no byte outside the declared buffer is modified.", "quantifier": "every value, every buffer size and bit offset", "why_tests_cant": "Every combination of remaining space and value has to be considered.", "anchors": ["asn1crt/asn1crt_encoding.c:BitStream_AppendByte0", "asn1crt/asn1crt_encoding.c:BitStream_AppendByteArray", "asn1crt/asn1crt_encoding.c:BitStream_AppendPartialByte", "asn1crt/asn1crt_encoding.c:BitStream_AppendNBitZero"]}
{"id": "C42", "title": "A decoder's result depends only on the bits it consumes", "statement": "When a decoder succeeds, the value is a function of the bits it consumed, all of which lie in the declared data: any other stream with the same bits next gives the same value and consumption, and no truncation of an accepted encoding is accepted.", "quantifier": "every stream content, every bit offset, every truncation point", "why_tests_cant": "Compares all pairs of streams that agree on a prefix.", "anchors": ["asn1crt/asn1crt_encoding.c:BitStream_ReadByte", "asn1crt/asn1crt_encoding.c:BitStream_ReadPartialByte", "asn1crt/asn1crt_encoding.c:BitStream_DecodeSemiConstraintWholeNumber", "asn1crt/asn1crt_encoding.c:BitStream_DecodeUnConstraintWholeNumber", "asn1crt/asn1crt_encoding.c:BitStream_DecodeBitString"]}
{"id": "C43", "title": "Constrained encodings are canonical", "statement": "When a constrained whole number or raw bit field decodes successfully, the bits consumed are exactly the bits the encoder writes for that value.", "quantifier": "every bounds, every stream content", "why_tests_cant": "All bit strings accepted by the decoder, for all bounds.", "anchors": ["asn1crt/asn1crt_encoding.c:BitStream_DecodeConstraintWholeNumber", "asn1crt/asn1crt_encoding.c:BitStream_DecodeConstraintPosWholeNumber", "asn1crt/asn1crt_encoding.c:BitStream_ReadBits"]}
{"id": "C44", "title": "Equality functions decide equality", "statement": "The octet string, bit string and object identifier equality functions return TRUE exactly when the two values are equal (same length and same significant content), ignoring unused bits and elements.", "quantifier": "all lengths and contents", "why_tests_cant": "A test compares a few values; equality must hold for every bit position, length and padding.", "anchors": ["asn1crt/asn1crt_encoding.c:OctetString_equal", "asn1crt/asn1crt_encoding.c:BitString_equal", "asn1crt/asn1crt.c:ObjectIdentifier_equal"]}
{"id": "C45", "title": "Object identifier decoders accept only well-formed encodings", "statement": "When an object identifier or relative OID decoder succeeds, the octets consumed are a non-empty sequence of complete, minimal subidentifiers of at most 64 bits and the result satisfies the validity predicate.", "quantifier": "all input streams", "why_tests_cant": "Malformed inputs are endless; round-trip tests only feed well-formed ones.", "anchors": ["asn1crt/asn1crt_encoding_uper.c:ObjectIdentifier_uper_decode", "asn1crt/asn1crt_encoding_uper.c:RelativeOID_uper_decode", "asn1crt/asn1crt_encoding_uper.c:ObjectIdentifier_subidentifiers_uper_decode"]}
{"id": "C46", "title": "ACN decoders are safe on arbitrary input", "statement": "On any data, with one readable byte after it, every ACN runtime decoder (integers, BCD, decimal text, strings, patterns, reals) ends without undefined behaviour, leaves the buffer unchanged, stores only inside the destination array and never reports success with the cursor past the end.", "quantifier": "every buffer content, length, cursor position, alphabet, terminator, size limit, destination array", "why_tests_cant": "All malformed and truncated inputs.", "anchors": ["asn1crt/asn1crt_encoding_acn.c:Acn_Dec_Int_PositiveInteger_ConstSize", "asn1crt/asn1crt_encoding_acn.c:Acn_Dec_Int_BCD_VarSize_NullTerminated", "asn1crt/asn1crt_encoding_acn.c:Acn_Dec_UInt_ASCII_VarSize_NullTerminated", "asn1crt/asn1crt_encoding_acn.c:Acn_Dec_String_CharIndex_private", "asn1crt/asn1crt_encoding_acn.c:Acn_Dec_String_Ascii_Null_Terminated_mult"]}
{"id": "C47", "title": "ACN decoders accept only encodings", "statement": "When an ACN runtime decoder accepts, the bits it consumed are, as a sequence, a specified encoding of the returned value, and the result depends on no other bit.", "quantifier": "every buffer content, length, cursor position", "why_tests_cant": "Quantifies over all inputs the decoder accepts, including those no encoder produces.", "anchors": ["asn1crt/asn1crt_encoding_acn.c:Acn_Dec_Int_TwosComplement_VarSize_LengthEmbedded", "asn1crt/asn1crt_encoding_acn.c:Acn_Dec_SInt_ASCII_ConstSize", "asn1crt/asn1crt_encoding_acn.c:Acn_Dec_String_Ascii_Null_Terminated", "asn1crt/asn1crt_encoding_acn.c:BitStream_DecodeTrueFalseBoolean"]}
{"id": "C48", "title": "Generated IsConstraintValid accepts exactly the permitted values", "statement": "The generated T_IsConstraintValid function returns TRUE for exactly the values of the C type that satisfy the constraints of the ASN.1 type and of its components, for constraints of any depth (unions, intersections, EXCEPT, extensions, SIZE, FROM, WITH COMPONENT(S)).", "quantifier": "every type and constraint within the stated conditions, every value", "why_tests_cant": "Types, constraints and values are unbounded; the generated tests contain few invalid values.", "anchors": ["BackendAst/DastValidate2.fs:createIntegerFunction", "BackendAst/DastValidate2.fs:createSequenceFunction", "StgC/isvalid_c.stg:Sequence_OptionalChild"]}
{"id": "C49", "title": "Generated XER codecs", "statement": "For every type built from INTEGER, BOOLEAN, NULL, strings, ENUMERATED, OCTET STRING, BIT STRING, SEQUENCE OF, SEQUENCE, CHOICE and references, the XER encoder that asn1scc generates writes exactly the XML document of the value, given independently as a tree of elements; the generated decoder accepts that document with any white space before its tags and returns the value; different values have different documents; and the decoder ends without undefined behaviour on arbitrary bytes without attributes.", "quantifier": "for all types, values, tags, nesting levels, buffers and positions in them, and all byte strings", "why_tests_cant": "The types are an unbounded inductive family and the white space and the bytes received are arbitrary; tests fix a few grammars and one layout.", "anchors": ["BackendAst/DAstXer.fs:119-480", "StgC/xer_c.stg:1-480", "asn1crt/asn1crt_encoding_xer.c"]}
{"id": "C50", "title": "Required size of XER documents", "statement": "The constant <Type>_REQUIRED_BYTES_FOR_XER_ENCODING that the compiler computes is larger than the document of every value of the type when no white space is asked for, so that the encoder succeeds in a zeroed buffer of that size.", "quantifier": "for all types without OBJECT IDENTIFIER whose enumerated names are not much longer than the last in alphabetical order, all values", "why_tests_cant": "The maximum over all values of all types cannot be sampled; tests use a value per grammar.", "anchors": ["BackendAst/DAstXer.fs:42-66"]}
{"id": "C51", "title": "Generated ACN encoder and decoder are inverse", "statement": "For every type with ACN properties (fixed, embedded, external-field and terminated sizes; all integer, enumerated, boolean, real and string codings; ACN-inserted length, presence and selector fields; alignment; references) the generated encoder writes exactly the bits that the ACN encoding rules prescribe, filling every inserted field with the value its consumers imply, and the generated decoder reads back the value and consumes exactly those bits, from any bit position; two values never share an encoding and none is a prefix of another.", "quantifier": "for all types, all encodable values, all positions, all values of enclosing determinants, all C implementations, both host endiannesses", "why_tests_cant": "The space of types, nestings of determinants and values is unbounded; the test suite has a fixed set of grammars with one value each.", "anchors": ["StgC/acn_c.stg:31-1200", "BackendAst/Acn/AcnSequence.fs", "BackendAst/Acn/AcnChoice.fs", "BackendAst/Acn/AcnSequenceOf.fs", "BackendAst/Acn/AcnOctetBitStrings.fs", "BackendAst/Acn/AcnStrings.fs", "BackendAst/Acn/AcnExternalField.fs"]}
{"id": "C52", "title": "Required size of ACN encodings", "statement": "acnMaxSizeInBits as computed by the front end bounds the size of the ACN encoding of every value at every position, so that a buffer of REQUIRED_BYTES_FOR_ACN_ENCODING octets suffices for the generated encoder.", "quantifier": "for all types, values, determinants and positions", "why_tests_cant": "The maximum over all values of all types cannot be sampled.", "anchors": ["FrontEndAst/AcnEncodingClasses.fs:11-275", "FrontEndAst/AcnCreateFromAntlr.fs:1345-1360", "StgC/acn_c.stg:18"]}
{"id": "C53", "title": "Minimal size of ACN encodings", "statement": "acnMinSizeInBits as computed by the front end is a lower bound of the size of the ACN encoding of every value.", "quantifier": "for all types, values, determinants and positions", "why_tests_cant": "The minimum over all values of all types cannot be sampled, and no test compares it with encodings.", "anchors": ["FrontEndAst/AcnEncodingClasses.fs:34-275", "FrontEndAst/AcnCreateFromAntlr.fs:1353-1360"]}
{"id": "C54", "title": "Generated ACN decoders are memory safe on any input", "statement": "For every type whose ACN fields are decoded before they are used and limit the lengths they give (strings without terminator pattern, no alignment beyond an octet, guarded uPER parts), the generated ACN decoder, run on any memory of count + 1 octets, terminates without undefined behaviour, leaves memory alone, does not succeed past the end of the data, and a value it returns fits the arrays and integer types of the C structure.", "quantifier": "all well-formed sturdy types, all determinants in scope, all memory contents, sizes and cursor positions", "why_tests_cant": "Hostile inputs for a generated decoder are unboundedly many and the failures need a length field that is out of step with an array; the round-trip tests only decode what the encoder produced.", "anchors": ["StgC/acn_c.stg:147-1010", "BackendAst/Acn/AcnOctetBitStrings.fs:33-149", "asn1crt/asn1crt_encoding_acn.c"]}
{"id": "C55", "title": "Generated ACN decoders are prefix parsers", "statement": "When the generated ACN decoder of a type succeeds, its result depends only on the bits it consumed: all of them lie before the end of the data, and the same bits at the same position of any other message give the same value and the same end position; in particular an encoding that is cut short is never accepted. This holds for tight types, except for results with contents that the decoder left unset.", "quantifier": "all well-formed tight types, all determinants in scope, all memory contents, sizes and cursor positions", "why_tests_cant": "Dependence on bits that are not consumed can only be excluded by comparing all pairs of messages; test suites only decode complete encodings.", "anchors": ["StgC/acn_c.stg:147-1010", "BackendAst/Acn/AcnOctetBitStrings.fs:33-149", "asn1crt/asn1crt_encoding_acn.c", "asn1crt/asn1crt_encoding.c:388-408"]}
{"id": "C56", "title": "Initialisation functions produce values of their types", "statement": "The generated _Initialize function of a type leaves a value that satisfies every constraint of the type, at every depth: an INTEGER is 0 whenever 0 is permitted and otherwise a permitted value if there is one; ENUMERATED, BOOLEAN, strings, SEQUENCE OF, SEQUENCE and CHOICE likewise.", "quantifier": "all types in the supported form (no EXCEPT, sizes that are intersections or unions of closed ranges, alphabets with a usable character), of any nesting and any number of constraints", "why_tests_cant": "The value chosen depends on the set of permitted values computed from arbitrary constraint expressions; test grammars cover a few of them.", "anchors": ["BackendAst/DAstInitialize.fs", "BackendAst/EncodeDecodeTestCase.fs", "StgC/init_c.stg"]}
{"id": "C57", "title": "Equality functions decide equality of abstract values", "statement": "The generated _Equal function of a type returns true for two objects exactly when they stand for the same abstract value, whatever their bytes beyond nCount, unused bits and absent members, and it reads nothing outside the objects. REAL values are compared up to a relative difference; this relation is symmetric, reflexive except for NaN, and never relates opposite signs.", "quantifier": "all types of any nesting, all pairs of C objects that stand for values of the type", "why_tests_cant": "Objects that differ only in bytes that carry no information, and pairs that differ in one place only, are too many to enumerate; the generated tests compare decoded values with the original only.", "anchors": ["BackendAst/DAstEqual.fs:1-371", "StgC/equal_c.stg:1-202", "asn1crt/asn1crt.c:58-70"]}
{"id": "C58", "title": "Generated uPER decoders accept only encodings", "statement": "Whatever bits are offered, when the generated uPER decoder of a type returns a value, the value belongs to the type and the bits consumed are exactly its encoding; so encoding the value again gives the same bits, no value has two accepted forms, and a value is returned exactly when its encoding is next in the declared data.", "quantifier": "all types of any nesting built from the constructors of UperCanon.canonical, all streams, all positions, all overflow behaviours that wrap", "why_tests_cant": "Tests start from valid values; the accepted bit strings are a set without bound of which only the encodings are exercised.", "anchors": ["BackendAst/DAstUPer.fs:1-988", "StgC/uper_c.stg:1-953", "asn1crt/asn1crt_encoding.c:1-900", "asn1crt/asn1crt_encoding_uper.c:1-162"]}
{"id": "C59", "title": "Generated ACN decoders accept only encodings", "statement": "Whatever bits are offered, when the generated ACN decoder of a type returns a value whose minimal sizes are right, the bits consumed encode that value: determinants, presence flags, selectors, patterns and terminators all agree with it. If every determinant has a consumer, encoding the value again gives the same bits and no value has two accepted forms; a value is returned exactly when an encoding of it is next in the declared data.", "quantifier": "all types of any nesting built from the constructors of AcnCanon.exact, all streams, all positions, all C implementations whose arithmetic wraps", "why_tests_cant": "Tests start from valid values; the accepted bit strings are a set without bound of which only the encodings are exercised.", "anchors": ["StgC/acn_c.stg:31-1200", "BackendAst/Acn/AcnSequence.fs", "BackendAst/Acn/AcnChoice.fs", "BackendAst/Acn/AcnExternalField.fs", "asn1crt/asn1crt_encoding_acn.c:1-2098"]}
{"id": "C60", "title": "Accepted ACN encodings hold every value of the type", "statement": "When the compiler accepts the ACN properties (encoding, size, endianness, termination pattern) of an INTEGER, of an ENUMERATED or of a size determinant, the encoding class it selects writes every value the type permits, the generated decoder reads it back into the selected C variable, and the length is within the sizes the compiler computed. For binary and packed decimal encodings of fixed size the acceptance test is exact.", "quantifier": "all combinations of ACN properties, all ranges, all values in range, all alignments, both word size settings of the C type, all C configurations admitted by C16", "why_tests_cant": "The test suite compiles a fixed set of ACN files; ranges and sizes form an unbounded product, and an accepted but too small encoding shows only at a boundary value.", "anchors": ["FrontEndAst/AcnEncodingClasses.fs:34-124", "FrontEndAst/AcnCreateFromAntlr.fs:171-220", "BackendAst/Acn/AcnPrimitives.fs:107-133"]}
{"id": "C61", "title": "Types are declared before they are used", "statement": "The topological sort of the compiler ends, keeps every node exactly as often as given and puts each node after all it depends on; if any such order exists it finds one, and otherwise it lists nodes each of which waits for another listed node or an unknown name. Hence in a generated header every type a type assignment mentions, in any component or parameter, is imported or stands earlier.", "quantifier": "all graphs over any type of names, all import lists, all type trees", "why_tests_cant": "The test files hold few types, mostly already in order; dependency graphs are unbounded.", "anchors": ["CommonTypes/FsUtils.fs:663-716", "BackendAst/DAstProgramUnit.fs:62-100", "BackendAst/DAstProgramUnit.fs:130-142"]}
{"id": "C62", "title": "Values and indices of ENUMERATED items", "statement": "The compiler numbers the items of an ENUMERATED as X.680 20 wants: explicit values are kept, the other items get, in the order of the text, the successive non-negative integers that are not explicit values, so that all values differ; the search terminates. ACN codes are the position or, with encode-values, the value set in the ACN file or else the ASN.1 value. The tables given to the uPER code are well formed and the index on the wire is the rank of the value when the binary search is used or no value is explicit.", "quantifier": "all lists of items with distinct names and distinct explicit values, all ACN properties, all thresholds of the binary search, all C configurations", "why_tests_cant": "The gaps between explicit values and their order are unbounded; the tests use a few fixed types.", "anchors": ["FrontEndAst/AcnCreateFromAntlr.fs:709-774", "FrontEndAst/DAstTypeDefinition.fs:388-402", "BackendAst/DAstUPer.fs:304-329", "FrontEndAst/CheckAsn1.fs:550-565"]}
{"id": "C63", "title": "Tags and the uPER order of alternatives and components", "statement": "When the alternatives of every CHOICE (and the components of a SET) are written in the canonical order of their tags, as is always the case under AUTOMATIC TAGS without written tags, the generated code produces and reads the X.691 encoding with the index of each alternative being the rank of its tag; an untagged CHOICE counts with its smallest tag. For distinct tags in any other order some alternative gets a wrong index.", "quantifier": "all nestings of CHOICE, all tags and classes, all values, all C configurations admitted by C16", "why_tests_cant": "The compiler is only tested against itself: encoder and decoder agree on the order of the text, so a wrong index is invisible.", "anchors": ["FrontEndAst/CreateAsn1AstFromAntlrTree.fs:475", "FrontEndAst/CreateAsn1AstFromAntlrTree.fs:490-502", "Antlr/asn1.g:225-232", "StgC/uper_c.stg:345-356"]}
{"id": "C64", "title": "Present-when expressions", "statement": "The C text printed for an ACN present-when expression has, by the C99 token rules and expression grammar, exactly one reading, the one with the structure of the ACN expression. Every accepted expression is printed. Without division an accepted expression has a value of the type found by the check; the C expression computes it when every operation is done in a C type that holds its operands and result (in particular when all integers on the way are below 2^31 and none is negative where unsigned members occur). A SEQUENCE whose flags agree with the expressions is encoded and decoded to the same flags and values if the expressions look only at mandatory components that come earlier, and flags that disagree are refused if encoding the component does not assign ret.", "quantifier": "all expressions, all SEQUENCE types, all names, all values and all previous memory contents", "why_tests_cant": "Texts of unbounded depth, signedness and overflow depend on the values; the lost error and the use of later components show only for particular combinations of flags and memory.", "anchors": ["BackendAst/Acn/AcnExpression.fs:22-83", "CommonTypes/AcnGenericTypes.fs:58-260", "FrontEndAst/CheckLongReferences.fs:358-384", "StgC/acn_c.stg:782-789", "StgC/acn_c.stg:882-896", "BackendAst/Acn/AcnSequence.fs:142-199"]}
{"id": "C65", "title": "Unique C names of enumerated items and choice alternatives", "statement": "If the renaming ends, no two enumerators of the grammar are the same, none is a listed keyword or the name of a value, no two alternative names are the same, and only names have changed. With SelectiveEnumerants it ends whenever no two values share a name; each name is the old one behind parts of the path to it, one call puts the innermost part not contained in the name before exactly those names that are there twice, and it fails exactly if there is no such part. With AllEnumerants all items of a type get the same prefix.", "quantifier": "all grammars: any number of modules, types, items and values, types of any depth", "why_tests_cant": "The recursion calls itself until no duplicate is left; whether it ends depends on coincidences of names over the whole grammar.", "anchors": ["FrontEndAst/EnsureUniqueEnumNames.fs:24-75", "FrontEndAst/EnsureUniqueEnumNames.fs:204-266", "CommonTypes/FsUtils.fs:483-501", "FrontEndAst/CloneTree.fs:37-104", "FrontEndAst/MapParamAstToNonParamAst.fs:255-271", "CommonTypes/CommonTypes.fs:12", "StgC/LangGeneric_c.fs:143-144"]}
{"id": "C66", "title": "C constants printed for ASN.1 values", "statement": "The definition const T x = ...; printed for a value assignment is C99, has exactly one reading as an initializer, and the object it initialises, of the C type declared for the ASN.1 type, represents the value: every component, its presence bit, the selected alternative, the number of elements, all characters, bits and numbers.", "quantifier": "all types and values of any depth without REAL and TIME, all integer classes, both word sizes", "why_tests_cant": "The text is put together from templates by recursion on type and value; the mistakes sit in characters, sizes and absences that no test value has.", "anchors": ["BackendAst/DAstVariables.fs:37-186", "StgC/variables_c.stg:1-203", "StgC/LangGeneric_c.fs:73-101", "StgC/header_c.stg:164-300", "CommonTypes/FsUtils.fs:587-607", "BackendAst/GenerateFiles.fs:31-43", "asn1crt/asn1crt.h:38-191"]}
{"id": "C67", "title": "Removal of parameterized types", "statement": "After RemoveParameterizedTypes every type assignment without parameters is still there, in order, no parameters or actual parameters are left, and every type has exactly the values X.683 gives it; the pass returns.", "quantifier": "all grammars: any number of modules, templates within templates to any depth, type and value parameters, all constraints; all values", "why_tests_cant": "Substitution goes wrong where names coincide or a parameter stands in a place no test template uses it, and the wrong type is a legal one.", "anchors": ["FrontEndAst/RemoveParameterizedTypes.fs:41-344", "FrontEndAst/ParameterizedAsn1Ast.fs:57-269", "FrontEndAst/CreateAsn1AstFromAntlrTree.fs:96-114", "FrontEndAst/CreateAsn1AstFromAntlrTree.fs:440-458"]}
{"id": "C68", "title": "Values written in a grammar", "statement": "The checks of default values and value assignments accept a value notation exactly when it is a value of its type in the sense of X.680, type and constraints, and they end.", "quantifier": "all types and all value notations of any size and depth, all references between types, all constraints including inner ones", "why_tests_cant": "Every kind of constraint can be combined with every kind of type and every way to write the value; tests show a few valid values accepted and a few invalid ones refused.", "anchors": ["FrontEndAst/CheckAsn1.fs:56-160", "FrontEndAst/CheckAsn1.fs:174-322", "FrontEndAst/CheckAsn1.fs:341-377", "FrontEndAst/CheckAsn1.fs:533-548", "FrontEndAst/Asn1Ast.fs:288-332", "CommonTypes/FsUtils.fs:587-607"]}
{"id": "C69", "title": "Names of the C types", "statement": "No two type definitions of a grammar get the same C name, no further name reserved for a type (ranges, selections, arrays) coincides with another one or with a type, none is a C keyword, every reference to a type uses the name that the type has in the end, type assignments whose names are distinct keep them, and the search for a free name ends with a C identifier.", "quantifier": "all grammars, as all lists of type assignments followed by all sequences of registrations in any order, all type prefixes, all contents of the map of names", "why_tests_cant": "A clash needs particular names in particular modules and a particular order of visits; tests compile a few grammars whose names do not collide.", "anchors": ["FrontEndAst/FE_TypeDefinition.fs:16-73", "FrontEndAst/FE_TypeDefinition.fs:75-109", "FrontEndAst/FE_TypeDefinition.fs:112-395", "FrontEndAst/AcnCreateFromAntlr.fs:1762-1782", "StgC/LangGeneric_c.fs:42-48"]}
{"id": "C70", "title": "Resolution of named bits, COMPONENTS OF and values", "statement": "Replacing COMPONENTS OF by the components of the SEQUENCE that is named gives the components X.680 defines; a BIT STRING value given by named bits becomes the bits of exactly these positions, as long as the largest size; and every value of the grammar means after the resolution (types behind references, named bits, strings in parts, { }, names of ENUMERATED items and values) only what it meant as it was written.", "quantifier": "all grammars of any number of modules, all types and values of any depth, all named bits and size constraints", "why_tests_cant": "Named bits, COMPONENTS OF and values that refer to other modules hardly occur in the test grammars, and a value resolved to another value still compiles.", "anchors": ["FrontEndAst/MapParamAstToNonParamAst.fs:104-123", "FrontEndAst/MapParamAstToNonParamAst.fs:126-264", "FrontEndAst/MapParamAstToNonParamAst.fs:352-397", "FrontEndAst/ParameterizedAsn1Ast.fs:249-303"]}
{"id": "C71", "title": "Texts of TIME values", "statement": "Every text of a time, a date, a date with a time or a time with a zone that the standard has is read as the value it means; every text that is not one is refused with an error; no text makes the compiler stop with another exception; and a value that is printed is read back as the same value.", "quantifier": "all texts of any length over ASCII characters, all seven classes of TIME types, all values in range, fractions of any number of digits", "why_tests_cant": "The only test in the code reads seven good texts and looks at no result; bad texts, and what is printed, are infinitely many.", "anchors": ["CommonTypes/CommonTypes.fs:128-165", "CommonTypes/CommonTypes.fs:185-262", "CommonTypes/CommonTypes.fs:275-294", "FrontEndAst/MapParamAstToNonParamAst.fs:140-145", "BackendAst/PrintAsn1.fs:30"]}
{"id": "C72", "title": "SETTINGS of TIME types", "statement": "The SETTINGS of a TIME type are read as the class they describe, in any order of the settings and with any spaces between them and around the equals signs, with the number of digits of the fraction of HMSFn; other texts are refused with an error.", "quantifier": "all texts of any length over ASCII characters; all orders of the settings; any number of spaces; the function that makes all orders, for arrays of any length", "why_tests_cant": "The orders and layouts are infinitely many, and no test grammar has a TIME type with a fraction.", "anchors": ["FrontEndAst/CreateAsn1AstFromAntlrTree.fs:23-36", "FrontEndAst/CreateAsn1AstFromAntlrTree.fs:726-760", "CommonTypes/FsUtils.fs:327-337"]}
{"id": "C73", "title": "References between modules", "statement": "The front end accepts a set of modules exactly when every type reference has one definition that its module can see, and no type and no module depends on itself; once accepted, every name that is defined in or imported into a module is found, and the search for it ends.", "quantifier": "all sets of modules with any number of types, values, imports and exports, any nesting of types, any names over ASCII", "why_tests_cant": "The graphs of modules, imports and references are infinitely many; the test grammars hardly use EXPORTS lists or external references.", "anchors": ["FrontEndAst/CreateAsn1AstFromAntlrTree.fs:38-50", "FrontEndAst/CreateAsn1AstFromAntlrTree.fs:887-900", "FrontEndAst/CreateAsn1AstFromAntlrTree.fs:947-1011", "FrontEndAst/CheckAsn1.fs:589-593", "FrontEndAst/CheckAsn1.fs:598-690", "FrontEndAst/Asn1Ast.fs:228-273"]}
{"id": "C74", "title": "Constraints a type may have", "statement": "A constraint is accepted for a type exactly when every part of it applies to the type at the end of its references: ranges to numbers and strings, sizes to strings and lists, alphabets to character strings, WITH COMPONENT(S) to existing components whose marks fit, and included types to compatible ones; every type is compatible with itself.", "quantifier": "all types, all constraints of any nesting, all sets of definitions, any check of values", "why_tests_cant": "Constraints nest without bound, and the combinations of kinds of types with kinds of constraints are far more than the test grammars; most of them are in no grammar because they are errors.", "anchors": ["FrontEndAst/CheckAsn1.fs:379-396", "FrontEndAst/CheckAsn1.fs:400-492", "FrontEndAst/Asn1Ast.fs:287-322"]}
{"id": "C75", "title": "Names of components in C", "statement": "The components of a SEQUENCE or CHOICE that is accepted get distinct names in the C struct, none of them a keyword of C, with and without --field-prefix; AUTO prefixes change the names of keywords only and are found in two rounds without an exception.", "quantifier": "all sets of modules, types of any nesting and names, all prefixes", "why_tests_cant": "Names of components are free text; clashes depend on pairs of names, on the path to them and on the prefix, of which tests have a handful.", "anchors": ["FrontEndAst/CheckAsn1.fs:23-41", "FrontEndAst/CheckAsn1.fs:497-531", "FrontEndAst/EnsureUniqueEnumNames.fs:78-202", "CommonTypes/FsUtils.fs:750-776"]}
{"id": "C76", "title": "Calls of the uPER functions of a referenced type", "statement": "A reference is encoded by a call of the functions of the type it refers to only if that type and the referenced type with the constraints of the reference have the same uPER encodings and the same values after decoding; a type without OBJECT IDENTIFIER is found equivalent to itself, through any number of references.", "quantifier": "all pairs of types of any nesting, all constraints and values", "why_tests_cant": "The pairs of types and constraints are unbounded; a wrong answer shows only for values whose encodings differ.", "anchors": ["FrontEndAst/TypesEquivalence.fs:5-38", "BackendAst/DAstUPer.fs:926-962"]}
