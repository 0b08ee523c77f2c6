{
 "C01": [
  "proved",
  "All twelve append operations; one-shot build; buffer large enough."
 ],
 "C02": [
  "proved",
  "For every configuration when max-min fits in int64, and for every int64 range when signed overflow wraps. C02_refuted: undefined behaviour otherwise."
 ],
 "C03": [
  "proved",
  "Includes the 8/16/32-bit decoders."
 ],
 "C04": [
  "proved",
  "Signed and unsigned entry points; the signed ones need v-min representable or wrapping arithmetic."
 ],
 "C05": [
  "proved",
  "Needs wrapping left shift for negative values and wrapping negation for INT64_MIN; the C05_*_refuted theorems show the undefined behaviour otherwise."
 ],
 "C06": [
  "proved",
  "From any memory content and any cursor, including outside the buffer."
 ],
 "C07": [
  "proved",
  "For every modelled decoder; C07_ theorems assume nothing about the memory. The safe contract of the C08_ theorems repeats it with totality."
 ],
 "C08": [
  "partial",
  "Proved with one readable byte after the declared data; false without it (C08_*_refuted)."
 ],
 "C13": [
  "proved",
  ""
 ],
 "C09": [
  "proved",
  "For every size except the empty string under a bound of 64K or more, where the property is false (C09_refuted)."
 ],
 "C10": [
  "proved",
  "As C09; C10_refuted for the empty string under a bound of 64K or more."
 ],
 "C11": [
  "partial",
  "Proved for bit strings and for the fragmented octet string decoder. False for the octet string decoder with a bound below 64K (C11_octets_refuted): the code ignores the failure of reading the content."
 ],
 "C38": [
  "proved",
  "For a limit of at least one bit and zero pad bits in the pattern; the two C38_*_refuted theorems show both conditions are needed."
 ],
 "C41": [
  "partial",
  "False (C41_refuted, C41_ub_refuted, C41_octets_refuted)."
 ],
 "C42": [
  "partial",
  "Proved for each decoder named and for generated decoders of strict types; false for the unconstrained integer decoder with length octet 0, for DecodeOctetString (C11_octets_refuted), and for the generated code using it (C42_octets_refuted, C42_containing_refuted)."
 ],
 "C43": [
  "proved",
  "C43_semi_refuted shows the length-prefixed integer encodings are not canonical."
 ],
 "C14": [
  "proved",
  "Every value accepted by the validity predicate with nCount <= 20. C14_joint_iso_refuted: {2 n} with n >= 40, which the predicate rejects, is not read back; C14_count_refuted: the predicate does not bound nCount."
 ],
 "C28": [
  "proved",
  "For widths 1..8 and, for INT64_MIN, wrapping negation; both conditions are needed (refuted theorems)."
 ],
 "C29": [
  "proved",
  ""
 ],
 "C37": [
  "proved",
  "The alphabet contains every character of a permitted string (all constraints), is in canonical order, and is exact for one FROM constraint without EXCEPT; the generated string type encodes exactly the permitted strings. Run time: GetCharIndex returns the index of a character of the set."
 ],
 "C44": [
  "proved",
  ""
 ],
 "C45": [
  "partial",
  "False (five C45_*_refuted witnesses). C42_* proves the announced octets are exactly those consumed."
 ],
 "C30": [
  "partial",
  "All types of the generator except the TIME types; every bit offset. REAL values outside C12 are not valid values. False for NUL characters in variable-size strings (C30_nul_refuted) and for CONTAINING types whose computed minimal size is wrong (C30_containing_refuted)."
 ],
 "C31": [
  "partial",
  "Proved for types satisfying conform; the five C31_*_refuted theorems show the deviations outside it. TIME types are not modelled."
 ],
 "C32": [
  "proved",
  "For the types modelled (no TIME). C32_bit_string_refuted: false for a BIT STRING narrowed by WITH COMPONENTS."
 ],
 "C33": [
  "partial",
  "Proved without extensible INTEGER and without variable sizes that may reach 64K; false for both (refuted)."
 ],
 "C34": [
  "proved",
  "For the types modelled; CONTAINING types need correct computed sizes (cont_fit)."
 ],
 "C35": [
  "partial",
  "Shape for all types; safety for guarded types. The C35_*_refuted theorems show what fails outside."
 ],
 "C12": [
  "partial",
  "Proved for every double except -0 and magnitudes below 2^-971, which are fully characterised by C12_any_double (C12_small_refuted, C12_subnormal_refuted, C12_minus_zero_refuted); negative exponents need defined shifts of negative numbers (C12_iso_refuted)."
 ],
 "C15": [
  "proved",
  "MIL-STD-1553 counts: for 1..32; 0 is sent as 0 and read as 32 (C15_milbus_refuted)."
 ],
 "C16": [
  "partial",
  "Proved except -2^63 with 64 bit encoders, which negate it (C16_min_refuted), and the n-bit decoder of negative values where left shifts of negative numbers are undefined (C16_negative_refuted)."
 ],
 "C17": [
  "partial",
  "Proved except -2^63, which the encoder negates (C16_min_refuted); with wrapping signed arithmetic for all values."
 ],
 "C18": [
  "partial",
  "Proved for all forms except length-prefixed BCD of more than 16 digits, which the decoder refuses (C18_length_refuted). The fixed size decoder accepts nibbles above 9 (C18_nibble_refuted)."
 ],
 "C19": [
  "partial",
  "Proved except -2^63 (C19_min_refuted) and terminators longer than ten bytes (C19_terminator_refuted)."
 ],
 "C20": [
  "partial",
  "Proved for every format under the stated conditions; false for terminators of several bytes when the input has no terminator in max+1 characters (C20_overflow_refuted, C20_long_refuted) and for alphabets with characters above 127 (C20_index_refuted)."
 ],
 "C21": [
  "proved",
  "The encoder of a pattern is the call of BitStream_AppendBits in the generated code."
 ],
 "C22": [
  "proved",
  "Encoder and decoder use the same functions."
 ],
 "C23": [
  "proved",
  "Every instance of the determinant macros and the IA5String determinant. Comparison of strings longer than 255 characters fails (C23_IA5_refuted)."
 ],
 "C24": [
  "proved",
  "All NaN patterns are one value in the model; 32 bit encoding of a double rounds (C24_float_refuted)."
 ],
 "C46": [
  "proved",
  "Preconditions stated per decoder: text decoders need NDEBUG (their asserts abort) and, when signed, wrapping negation; the n-bit two's complement decoder defined shifts of negative numbers; the multi-byte terminator decoder an array of max+2 (see C20_overflow_refuted)."
 ],
 "C47": [
  "proved",
  "For all ACN decoders modelled; index strings need an alphabet without repetitions."
 ],
 "C36": [
  "partial",
  "Contains every permitted value when no bound has the form MIN..b, or no intersection meets MIN..x with a..b, a<x<b: that case is refuted (C36_contains_refuted). Also: the types generated from constraints encode exactly the permitted values. Refuted: tightness, rejection of empty types, extension markers under serial constraints, unions with unconstrained included types, additions of MIN..MAX."
 ],
 "C48": [
  "partial",
  "C48_exact for types of any depth under the conditions of ValidSpec.v; outside them the statement is false, as shown by the _refuted theorems: negative bounds with unsigned C types, SIZE of types of fixed size under EXCEPT, unions of WITH COMPONENT(S), WITH COMPONENTS without '...', single values of structured types."
 ],
 "C25": [
  "partial",
  "Round trip and exactness of tags up to four octets, of definite lengths below 2^31 and of the indefinite form. Refuted: identifiers of five octets or more are written but reading them is undefined behaviour (shift by 32); lengths of five or more octets are taken modulo 2^32, lengths from 2^31 come out negative (2^32-1 as indefinite), the reserved octet 0xFF is accepted."
 ],
 "C26": [
  "partial",
  "Round trip for every value of INTEGER, BOOLEAN, NULL, OCTET STRING, IA5String, BIT STRING and (as returned by the uPER codec) REAL, and what each decoder accepts. Refuted: INTEGER of length 0, above 8 or indefinite is undefined behaviour; strings that do not fit are silently cut; negative counts from indefinite lengths and from unchecked numbers of unused bits; REAL does not understand long lengths."
 ],
 "C27": [
  "partial",
  "Refuted: the test currentByte+1 > count+1 lets one byte past the end be written or read. Proved for every codec: given one spare byte behind the buffer nothing else is touched."
 ],
 "C40": [
  "partial",
  "Integers, booleans, enumerated values, NULL, strings without '<', octet strings of at most 511 octets and bit strings of at most 2047 bits round trip in a zeroed buffer; the encoders stay inside the buffer and the decoders are safe on any bytes (glibc; no attributes where none are expected). Refuted: escaping of '<', attributes, long octet and bit strings, object identifiers, non-numerals accepted, overruns. Texts of reals are not modelled beyond the scaling loops of Double2String."
 ],
 "C49": [
  "partial",
  "All modelled types: document written exactly, read back with any white space, unambiguous, decoder total on any bytes. Not modelled: REAL, TIME, narrow integer types, pErrCode. Restrictions on types and the failures outside them are the refuted theorems: INTEGER check hides failures, unknown ENUMERATED names and CHOICE alternatives accepted, fixed sizes unchecked, strings in a function of their own cut at 7 characters, '<' not escaped, BIT STRING overrun, OBJECT IDENTIFIER unreadable."
 ],
 "C50": [
  "partial",
  "Proved for types meeting roomy; refuted for OBJECT IDENTIFIER, for ENUMERATED with a long name that does not sort last, for lists of an alias of a CHOICE, and with white space. REAL and TIME not modelled."
 ],
 "C39": [
  "partial",
  "Proved: writers of bits, bytes and ones (any block size, block cleared or not); of parts of bytes, zeros and the integer encoders (pushData clears the block, blocks of 8 bytes or more); octets inside a block; alignment; readers of bits, parts of bytes, integers (with the exact condition under which they fail). Whole messages equal the one-shot encoding, and short ones are read back in blocks of any size. Refuted beyond that: no clearing, shorter blocks, octet strings and whole bytes over the end of a block, word alignment. The end of the data is not detected. checkBitPatternPresent is not modelled in streaming mode."
 ],
 "C51": [
  "partial",
  "For values that the ACN rules can encode (relation encodes of AcnGenSpec.v). Refuted where those conditions fail: mapping function on 16 bit two's complement big endian, determinants without present consumer, terminators inside contents, nested terminated lists, encode-values of efficient enumerations."
 ],
 "C52": [
  "proved",
  ""
 ],
 "C53": [
  "partial",
  "Missing: lists without size property whose items have several sizes, for which it is refuted."
 ],
 "C54": [
  "partial",
  "holds for sturdy types; refuted for length fields whose test is left out, negative lengths, terminated strings, word alignment and with asserts enabled"
 ],
 "C55": [
  "partial",
  "Proved for tight types (strict uPER parts, lengths whose flag is kept, items of terminated lists without terminators of their own, alignment only to octets), for results without unset contents, and unconditionally for firm types; the excluded cases are refuted by witnesses."
 ],
 "C56": [
  "partial",
  "Proved for the types of InitSpec.ready; EXCEPT, single-value exclusions, sizes with holes, OBJECT IDENTIFIER, CHOICE with ABSENT alternatives, WITH COMPONENT inside unions, references with WITH COMPONENTS and variable-size BIT STRING defaults are refuted by witnesses."
 ],
 "C57": [
  "partial",
  "Exact for types without REAL whose named functions are those of types with the same layout; with REAL up to Asn1Real_Equal. DEFAULT components, fixed-size subtypes of variable-size types, NaN and transitivity on REAL are refuted by witnesses. TIME types are not modelled."
 ],
 "C58": [
  "partial",
  "Proved for UperCanon.canonical; for each excluded constructor a witness shows an accepted bit string that is not an encoding (NUL in strings, OCTET STRING lengths, leading zeros of INTEGER, OID and REAL, extension form of root values, two-octet lengths, ABSENT and PRESENT bits, CONTAINING)."
 ],
 "C59": [
  "partial",
  "Proved for AcnCanon.exact and results that pass AcnCanon.whole; for the excluded constructors witnesses show accepted bit strings that are not encodings (alignment padding, one-pattern BOOLEAN, skipped NULL pattern, BCD nibbles, signed text, wrapping and narrowed integers, leading zeros, NUL in strings, OCTET STRING lengths, untested minimal sizes), and that whole (NaN, short strings) and served (unused determinants) are needed."
 ],
 "C60": [
  "partial",
  "Proved outside open_case; witnesses show accepted encodings that do not hold the range: the lower limit of fixed size text, digit or empty terminators, BCD with a terminator for negative values, unchecked size determinants and encode-values of the uPER class, slim variables too small for a size determinant, word size 4; unsigned text is checked as signed text. Mapping functions skip the check and are not modelled; REAL, string and CHOICE classes are not covered."
 ],
 "C61": [
  "proved",
  "Model of the sort, of the callers' split of the nodes and of sortTypes for C; names are compared by an equality (StringLoc compares its value only)."
 ],
 "C62": [
  "partial",
  "Proved without constraints on the items. Witnesses: with the switch (the default) items that are not declared in ascending order get the wrong uPER index, and option -eee changes the bits; encode-values accepts equal codes for two items."
 ],
 "C63": [
  "partial",
  "Tags are dropped by the compiler. Proved for types whose tags ascend; witnesses show the wrong index for CHOICE {a INTEGER, b BOOLEAN} without AUTOMATIC TAGS, for written tags in descending order, and the wrong order of SET components. Components of SET: mandatory ones only."
 ],
 "C64": [
  "partial",
  "REAL operands are modelled in the check and the text, not in the value. Refuted with witnesses: a flag 'present' against an expression 'absent' is encoded silently when encoding the component assigns ret; expressions may look at later components, which the decoder has not yet read; nested components cannot be referenced and superfluous names are ignored; named constants are printed as the empty text; non-BOOLEAN expressions and modulo of REAL are accepted; unsigned comparison, overflow, division by zero and constants from 2^63 on."
 ],
 "C65": [
  "partial",
  "Names are ASCII; field prefixes, AlwaysPrefixTypeName and the Ada and Scala names are not modelled. Refuted with witnesses: two modules with a value of the same name make the compiler run forever, as do, with AllEnumerants, names that contain one another and nested CHOICEs; an enumerator may coincide with the constant of a value, with the name of an alternative or with a keyword of C99; correct grammars are refused if a name contains all parts of its path."
 ],
 "C66": [
  "partial",
  "REAL and TIME values, bit strings for OCTET STRING and byte strings for BIT STRING are not modelled. Refuted with witnesses: a BIT STRING in a type with nCount gets the number of bytes as number of bits (right exactly for at most one bit), quotes in strings are dropped (right exactly without quotes), backslashes are not escaped, a SEQUENCE whose components are all OPTIONAL and absent gives a syntax error, empty values give empty braces, values of fixed size subtypes of variable size types are stored in the wrong members, arcs of 2^63 and more have no type, a component named exist collides with the presence bits."
 ],
 "C67": [
  "partial",
  "Proved for grammars without cycles in which parameters are named only where the code replaces them (hygienic) and constraints are not extensible. Implicit imports, the merge of ACN specifications, locations, units and REAL, BIT STRING, OCTET STRING, NULL and OBJECT IDENTIFIER values are not modelled. Refuted with witnesses: extensible constraints make the pass run forever, CONTAINING a parameter loses the container, COMPONENTS OF, inclusions and inner actual parameters keep the parameter, parameterized types within actual parameters stay, values and items named like a parameter are captured, a parameter constrained by a named value is refused, the constraint of a parameter given as actual parameter is dropped."
 ],
 "C68": [
  "partial",
  "Proved for values written without names of values, in the notation of their type, and for constraints in the fragment tame; that a notation fits its type is proved for all notations, order and repetition of SEQUENCE components apart. OBJECT IDENTIFIER and TIME are not modelled, REAL values are rational numbers. Refuted with witnesses: names of values are compared instead of values (also across modules), named ENUMERATED values are refused, OPTIONAL with a constraint refuses the absent component, inclusions check only the last constraints, SIZE of octet strings within inner constraints refuses all, FROM with strings under set operators, components of named SEQUENCE values unchecked, order and repetition of components unchecked, PRESENT in CHOICE ignored, REAL bounds truncated, values naming each other make the check run forever."
 ],
 "C69": [
  "partial",
  "Proved for all sequences of registrations: distinct names, no keywords, stable names, plain names kept. That the search for a name ends with an identifier is proved for type prefixes without underscore and numbers that do not overflow. Which registrations a grammar causes (mergeType) is not modelled; all sequences are covered in which the base of a primitive subtype is a type assignment. Refuted with witnesses: the number at the end of a name overflows Int32 and gives a name with a minus sign; a type that alone has a name may be renamed; names of types coincide with names of generated functions and of types of the run-time library."
 ],
 "C70": [
  "proved",
  "COMPONENTS OF and named bits are characterized exactly. Values: proved for grammars whose names of values are used with the type they are declared with, whose names of ENUMERATED values are of the module of the type, and whose named bits are within the size. Refuted with witnesses: a name of an ENUMERATED value is looked up in the wrong module and gives another value; a named bit beyond the size is lost; { } is refused for BIT STRING; COMPONENTS OF an alias is refused and a cyclic one never ends; SIZE(0) wraps around; a size on a reference is ignored; names are refused within strings in parts."
 ],
 "C71": [
  "partial",
  "Proved without bounds: all texts of the standard are read as what they mean; the texts that are read, those that end in an unexpected exception, and the values whose printed text is read back are characterized exactly. The rest of the claim is false and refuted with witnesses: parts after a date or a fraction are ignored, zones may hold blanks and signs, 31 February is read, the precision of the type is ignored, a date without day or month ends in an exception, leading zeros are not printed, and a date with a time is printed without the T."
 ],
 "C72": [
  "partial",
  "Proved without bounds: the settings of every class without a fraction are read as the class in any order and with any blanks, and the texts that are read are characterized exactly. False, with witnesses: fractions (every text with HMSFn, any n, ends in an exception, or in a refusal if it stands first), line ends between settings are refused, blanks within words are ignored."
 ],
 "C73": [
  "partial",
  "Proved without bounds: the accepted sets of modules are characterized exactly, as are the imports added by the front end and the search for a type in accepted modules. False, with witnesses: a module with an EXPORTS list cannot use its private types, M.T is refused beside another T, the name of a module imported from hides a type of that name, imported types cannot be exported again, EXPORTS may list undefined names, mutual imports are refused, a missing module is reported as a cycle, one of two clauses for a module is dropped."
 ],
 "C74": [
  "partial",
  "Proved without bounds: the accepted constraints and the types taken as compatible are characterized exactly, the answer does not depend on the depth of the recursion, and a type may be constrained to itself. False, with witnesses: ENUMERATED types with the same number of items are compatible whatever their items, SEQUENCE and CHOICE types only if they are one definition; two alternatives may be PRESENT, the ends of a range in the wrong order, SIZE and FROM within FROM."
 ],
 "C75": [
  "partial",
  "Proved without bounds: what is accepted, exactly; distinct names without a prefix and with a prefix of the user; no keywords without a prefix and with AUTO; AUTO renames keywords only, ends after two rounds and raises nothing; with AUTO distinct names if there are no hyphens. False, with witnesses: distinct names with AUTO and hyphens, no keywords with a prefix of the user, inline and restrict, modules with hyphens, and names that differ in case only."
 ],
 "C76": [
  "partial",
  "Proved without bounds: equivalent types are both refused or have the same encodings and decoded values, the call of the functions of the one encodes and decodes as the other, reflexivity without OBJECT IDENTIFIER, references do not matter. False, with witnesses: reflexivity for OBJECT IDENTIFIER, and that types with the same encodings are found equivalent. Not modelled: TIME types, tags, CONTAINING, calls of validity functions."
 ]
}