# Formal model of asn1scc (C runtime, generated uPER, ACN and XER code) in Rocq/Coq 8.16.1

## 1. What is modelled

The model follows the C runtime in `/repo/asn1crt` function by function, plus
the parts of the compiler that decide what the generated C code does for uPER
(`FrontEndAst/uPER.fs`, `CommonTypes/CommonTypes.fs`, `BackendAst/DAstUPer.fs`,
`StgC/uper_c.stg`).  Every definition cites file and lines.

### 1.1 Machine model (`Base.v`)

* A C function is a function from the bit-stream state to an *outcome*:
  `Ok (result, state)`, `Abort` (a failed `assert`), `UB` (undefined
  behaviour), or `Diverge` (a loop exhausted the fuel of the model; it is proved
  not to happen where it matters).
* The state is the `BitStream` record: `buf` (the accessible memory, a list of
  bytes as `Z`), `count` (the declared size), `currentByte`, `currentBit`.
  `buf` may be longer than `count` (slack memory after the declared data).
  Any access at an index outside `buf` is `UB`.  So an access at `buf[count]`
  is `UB` exactly when the caller's memory ends there.
* Signed 64-bit arithmetic goes through checked operations.  What happens on
  overflow is chosen by a configuration record that every function takes:
  `ovf_wrap` (as `gcc -fwrapv`; otherwise `UB`), `shl_wrap` (left shift of a
  signed value that does not fit; gcc defines it, ISO C does not), `ndebug`
  (asserts compiled out).  Theorems state which configurations they need.
* Out of scope of the machine model: `long`/`int` cursor arithmetic overflow
  (buffers above 2^28 bytes), aliasing of the value argument with the buffer,
  data races, and (outside `Streaming.v`) the `ASN1SCC_STREAMING` build.
  `WORD_SIZE = 8`, `FP_WORD_SIZE = 8`, little-endian host for the IEEE-754
  reals, plain `char` signed.

### 1.2 Specification side (`Bits.v`)

Written without reference to the model: `bits_of_byte`, `bits_of_bytes` (MSB
first), `Zbits n z` (big-endian n-bit form), `twos n z`, `uper_bits t v` (the
X.691 bits of a value).  States are described by `at_ s pre rest`: the memory
is the bit string `pre ++ rest` and the cursor is between the two.

* encoder contract `writes f bs`: from any state `pre | zeros n` with
  `length bs <= n` and the zeros ending at `count`, `f` ends in
  `pre ++ bs | zeros (n - length bs)`; memory after `count` is unchanged.
* decoder contract `reads f bs a`: from any state `pre | bs ++ rest` inside
  `count`, `f` returns `a` and ends in `pre ++ bs | rest`, same memory.

Round trip is then the pair (`writes enc (spec v)`, `reads dec (spec v) v`),
plus a combined theorem that runs the model encoder from `BitStream_Init` and
the model decoder from `BitStream_AttachBuffer` on the result.

### 1.3 Files

Model of the code (each definition cites file and lines):

| file | code |
|---|---|
| `Base.v` | outcomes, configuration, machine integers, the `BitStream` record and its monad |
| `BitStream.v` | asn1crt_encoding.c 10-530, one-shot build |
| `Ints.v` | asn1crt_encoding.c 535-1025 |
| `Octets.v` | asn1crt_encoding.c 1323-1383, 1471-1780 |
| `RealC.v` | asn1crt_encoding.c 1060-1321, 1803-1809 (`FP_WORD_SIZE = 8`, without `USE_LDEXP`) |
| `Oid.v` | asn1crt_encoding_uper.c, `ObjectIdentifier_isValid`, `RelativeOID_isValid` |
| `Misc.v` | asn1crt.c |
| `Acn.v`, `AcnStr.v`, `AcnReal.v` | asn1crt_encoding_acn.c and the determinant macros of asn1crt_encoding_acn.h |
| `ByteStream.v`, `Ber.v` | asn1crt_encoding_ber.c |
| `Xer.v` | asn1crt_encoding_xer.c |
| `Streaming.v` | the `ASN1SCC_STREAMING` build of asn1crt_encoding.c 121-530, 535-1000, 1389-1468, 1785-1799 and asn1crt_encoding_acn.c 13-62 |
| `UperTypes.v`, `Uper.v` | code generated for uPER, DAstUPer.fs and uper_c.stg |
| `UperSizes.v` | sizes computed by AcnCreateFromAntlr.fs |
| `AcnGen.v` | code generated for ACN, BackendAst/Acn/*.fs and acn_c.stg |
| `Init.v` | `_Initialize` functions, BackendAst/DAstInitialize.fs and init_c.stg |
| `Equal.v` | `_Equal` functions, BackendAst/DAstEqual.fs and equal_c.stg; Asn1Real_Equal |
| `AcnGenSizes.v` | ACN sizes computed by AcnEncodingClasses.fs, AcnCreateFromAntlr.fs |
| `Constraints.v` | uPER.fs, `uperUnion`/`uperIntersection`, C type of an integer, removal of type inclusions |
| `Validate.v` | `_IsConstraintValid`, DastValidate2.fs and isvalid_c.stg |
| `Pipeline.v` | constraints to ranges, ranges to codecs, validity check after decoding |
| `AcnEncClass.v` | encoding class of an INTEGER, ENUMERATED or size determinant and its acceptance, AcnEncodingClasses.fs 34-124, AcnCreateFromAntlr.fs 171-220 |
| `Topo.v` | topological sort, FsUtils.fs 663-716; order of the types in a header, DAstProgramUnit.fs 62-142 |
| `EnumNum.v` | values and codes of ENUMERATED items, AcnCreateFromAntlr.fs 709-774; tables of the generated code |
| `Tags.v` | what remains of tags (nothing), CreateAsn1AstFromAntlrTree.fs 446, 475, 497 |
| `AcnExpr.v`, `AcnExprSeq.v` | present-when expressions: check, text, generated code; AcnGenericTypes.fs 58-260, AcnExpression.fs, acn_c.stg 782-896 |
| `Names.v` | C names of enumerated items and alternatives, EnsureUniqueEnumNames.fs 24-75, 204-266 |
| `Consts.v` | C constants of value assignments, DAstVariables.fs 37-186, variables_c.stg, header_c.stg |
| `Params.v` | removal of parameterized types, RemoveParameterizedTypes.fs 41-344, ParameterizedAsn1Ast.fs 57-269 |
| `Check.v` | checks of default values and value assignments, CheckAsn1.fs 56-377, 533-548, 633-639 |
| `TypeNames.v` | names of the C types, FE_TypeDefinition.fs 16-395, AcnCreateFromAntlr.fs 1762-1782 |
| `Time.v` | reading and printing of TIME values, CommonTypes.fs 128-165, 185-262, 275-294; ASCII only, NUL characters after a number left out, EndsWith("Z") as an ordinal comparison |
| `TimeClass.v` | SETTINGS of TIME types, CreateAsn1AstFromAntlrTree.fs 24-36, 726-760; `combinations`, FsUtils.fs 327-337; ASCII only, IndexOf as an ordinal search |
| `Modules.v` | references, imports and exports of modules, CreateAsn1AstFromAntlrTree.fs 38-50, 824-910, 947-1011; CheckAsn1.fs 589-593, 598-690; Asn1Ast.fs 228-273; without parameterized types, constraints, values and the check of names against keywords |
| `ConAllowed.v` | constraints a type may have, CheckAsn1.fs 379-396, 400-492; the check of values is a parameter, named bits and components copied by COMPONENTS OF are left out |
| `FieldNames.v` | names of components, CheckAsn1.fs 23-41, 497-531, EnsureUniqueEnumNames.fs 78-202 for C; ASCII names, default values and types of value assignments left out |
| `TypeEquiv.v` | uperEquivalence, TypesEquivalence.fs 5-38; equality tests of F# are parameters; TIME types, tags, CONTAINING and ACN components left out; alternatives of both types in one order |
| `Resolve.v` | named bits, COMPONENTS OF, values behind references, MapParamAstToNonParamAst.fs 104-264, 352-397 |
| `XerGen.v` | code generated for XER, DAstXer.fs and xer_c.stg |

Specification (independent of the model): `Bits.v`, `Contracts.v` (contracts
over states), `Parse.v`, `StrSpec.v`, `OidSpec.v`, `RealSpec.v`, `UperSpec.v`,
`UperShape.v`, `AcnGenShape.v`, `AcnGenParse.v`, `AcnSpec.v`, `ConSpec.v`, `BerSpec.v`, `XerSpec.v`,
`XerGenSpec.v`, `StreamingSpec.v`, `AcnGenSpec.v`, `InitSpec.v`, `EqualSpec.v`, `UperCanon.v`, `AcnCanon.v`, `TopoSpec.v`,
`EnumNumSpec.v`, `TagsSpec.v`, `CExpr.v` (tokens, grammar and evaluation of C99 expressions),
`AcnExprSpec.v`, `NamesSpec.v`, `CInit.v` (tokens, grammar and meaning of C99 initializers), `ConstsSpec.v`,
`ParamsSpec.v` (what types with parameters mean), `CheckSpec.v` (values of types),
`TypeNamesSpec.v`, `ResolveSpec.v` (values as they are written), `TimeSpec.v` (texts of TIME values), `TimeClassSpec.v` (SETTINGS of TIME types), `ModulesSpec.v` (references between modules), `ConAllowedSpec.v` (constraints a type may have), `FieldNamesSpec.v` (names of components), `TypeEquivSpec.v` (types with the same encodings).  Side conditions of the theorems:
`UperWf.v`, `UperClasses.v`, `ValidSpec.v`; `History.v` is the datatype of
append operations of C01.

`*Proofs*.v` contain lemmas only.  `PropertiesN.v` contain the theorems listed
in MANIFEST.json, the examples beside them and nothing else; each ends with
`Print Assumptions` of the tuple of all its theorems.

### 1.4 What is not modelled

* The parser and the semantic checks of the compiler except those of
  `AcnEncClass.v`, `Constraints.v` and `Check.v`, the Ada, Scala and Python
  back ends, generated test cases.
* The TIME types: the generated uPER code calls functions such as
  `Asn1LocalTime_uper_encode` (uper_c.stg 276-278, DAstUPer.fs 274-289) that the C
  run time does not have.
* Generated ACN code: CONTAINING with ACN properties, save-position, post-encoding and pre-decoding hooks,
  `--acn-deferred` (its run-time macros are in `Acn.v`).  The exist flags of
  components whose type has no statements are taken to be set on decoding.
* `pErrCode` (XER, BER and generated code): only the returned flag.
* XER: `REAL` in generated code, narrow C integer types, `fopen`/`fread` of
  `LoadXmlFile` (the text filter is modelled).
* Streaming: `checkBitPatternPresent`, decoders of semi-constrained and
  unconstrained integers, fragmented strings, reals.
* libc: `isalpha`, `atoll`, `strtoll` and `sprintf` appear by their ISO C
  meaning, `isalpha` by a parameter where glibc and ISO C differ.

## 2. Property by property

| id | model | how |
|---|---|---|
| C01 | BitStream.v, `History.op` | induction over the operation list from per-operation `writes`/`reads` lemmas |
| C02-C05 | Ints.v | `writes`/`reads` lemmas; bit widths related to `Z.log2` |
| C06 | Ints.v | case analysis on the outcome |
| C07, C08 | all decoders | a `safe` contract proved for each decoder; refuted without a guard byte by a concrete state (reads `buf[count]`) |
| C09, C10 | Octets.v | induction on the number of fragments; the empty string under bounds >= 64K is refuted |
| C11 | Octets.v | refuted for `BitStream_DecodeOctetString` (result of the body decoder ignored); proved for the others |
| C12 | RealC.v | exact arithmetic of the scaling loop over SpecFloat; refuted for -0, subnormals and tiny values |
| C13 | Ints.v | arithmetic |
| C14, C45 | Oid.v | induction on base-128 digits; C45 is refuted |
| C15-C24 | Acn*.v | as C02-C05; several clauses refuted |
| C46, C47 | Acn*.v | `safe` and prefix-parser contracts for every decoder |
| C25-C27 | Ber.v | byte-stream version of the contracts |
| C28, C29, C44 | Misc.v | arithmetic; loop invariant |
| C30, C31, C34 | Uper.v | induction over a nested type datatype |
| C32, C33 | Uper.v, UperSizes.v | induction over types |
| C35 | Uper.v | `safe` contract by induction over types |
| C36, C37 | Constraints.v, Pipeline.v | induction over constraint expressions; the intersection rule is refuted |
| C38 | Octets.v | loop invariant |
| C39 | Streaming.v | a state invariant with everything pushed so far; contracts `swrites`/`sreads` over it |
| C40 | Xer.v | lexer invariants; decimal digits |
| C41 | BitStream.v, Octets.v, Uper.v | refuted: one byte past the end is written |
| C42, C43 | all decoders | prefix-parser contract of Parse.v |
| C48 | Validate.v, ConSpec.v | induction over types and constraints |
| C51-C53 | AcnGen.v, AcnGenSpec.v, AcnGenSizes.v | relation `encodes` between values and bit strings; position-indexed contracts `writesAt`/`readsAt`, induction over types |
| C54 | AcnGen.v, AcnGenShape.v | contract `safe`, scopes of determinants, induction over types |
| C55 | AcnGen.v, AcnGenParse.v | contract `prefix`: prefix parsers at a position, for results without unset contents |
| C56 | Init.v, InitSpec.v | permitted sets of Constraints.v/ConSpec.v, induction over types |
| C57 | Equal.v, EqualSpec.v | abstract value `abs` of a C object, decision `sameb`, induction over types |
| C58 | Uper.v, UperCanon.v | contract `parses` (accepted implies encoded), induction over types |
| C59 | AcnGen.v, AcnGenSpec.v, AcnCanon.v | contract `yields` (accepted implies encoded, at a position), induction over types with the scope of determinants |
| C60 | AcnEncClass.v, AcnGenSpec.v | cases over the encoding classes, reduced to the codec theorems of `k_enc`, `k_dec` |
| C61 | Topo.v, TopoSpec.v | invariant of the loop: each node is placed, ready or waits for what is not yet written |
| C62 | EnumNum.v, EnumNumSpec.v | invariant of the search (numbers below are taken or explicit), uniqueness of sorted permutations |
| C63 | Tags.v, TagsSpec.v | rank in an ascending list, induction over nested CHOICEs, C31 |
| C64 | AcnExpr.v, AcnExprSeq.v, CExpr.v, AcnExprSpec.v | unambiguity of the C grammar by a deterministic parser relation, token states at the joints of the printed text, induction over expressions and components |
| C65 | Names.v, NamesSpec.v | induction over calls; termination by the number of path parts not contained in the names; an invariant for each endless run |
| C66 | Consts.v, CInit.v, ConstsSpec.v | induction over value and type; the grammar of initializers shown unambiguous; printing inverse to lexing |
| C67 | Params.v, ParamsSpec.v | a meaning for all types at once (`model`); induction over the fuel of instances and over types; environments that agree on the names used; termination by rank and nesting |
| C68 | Check.v, CheckSpec.v | two meanings: notation to value (`den`), values of types (`values_of`, relative to a meaning of the type names); each check decides its predicate from some fuel on (`decides`); own induction principle for the constraint fragment `tame` |
| C69 | TypeNames.v, TypeNamesSpec.v | invariant of the state (who owns which name) kept by every registration; the search visits names of ascending rank (length without the number, number), all of them taken |
| C70 | Resolve.v, ResolveSpec.v | a second meaning of notation (`gden`, with named bits and COMPONENTS OF); induction over the meaning of the resolved value (`den` of C68) and inversion of the resolution |
| C71 | Time.v, TimeSpec.v | uniqueness of cutting a text at a character (`split_inv`, `cut_unique`); numerals by induction from the right; lengths of decimal texts |
| C72 | TimeClass.v, TimeClassSpec.v | a replacement keeps whatever does not tell pattern from replacement (`replace_run`), applied to the text without spaces and to an automaton for the layout; the map of 384 keys is checked by computation, the orders by induction |
| C73 | Modules.v, ModulesSpec.v | every check as the proposition it decides; orders from C61; the imports by induction over the merged clauses |
| C74 | ConAllowed.v, ConAllowedSpec.v | induction over constraints and over the depth of references; an order of results for the depth |
| C75 | FieldNames.v, FieldNamesSpec.v | induction over types; ToC is injective on identifiers; the last underscore of a name |
| C76 | TypeEquiv.v, TypeEquivSpec.v, Pipeline.v | induction over types; C30 for the call |
| C49, C50 | XerGen.v, XerGenSpec.v | induction over types; documents as trees |

## 3. Trusted base

* Coq 8.16.1's kernel (and `coqchk`, run by the gate).
* The reading of the C, StringTemplate and F# sources recorded in the comments.
* No axioms: section 5.
* Only Coq's standard library is imported.  Doubles are its `SpecFloat`,
  defined in Gallina; no primitive floats or integers.

## 4. Findings: what is false of the code

Every line is a theorem `Cnn_..._refuted` with a concrete witness in the named
file.  Conditions under which the property holds are in the positive theorems
beside it.

### Integers and bit streams (`Properties1.v`)

* `C02_refuted`: When max - min does not fit in int64 and overflow does not wrap, both directions are undefined: INTEGER (-2^63 .. 2^63-1).
* `C05_encode_refuted`, `C05_decode_refuted`: Encoding INT64_MIN is undefined unless overflow wraps; decoding any negative number is undefined in strict ISO C (left shift of a negative value).
* `C08_ReadBit_refuted`, `C08_ReadPartialByte_refuted`, `C08_DecodeUnConstraint_refuted`, `C08_DecodeConstraint_refuted`: Without the guard byte the claim is false: reading a bit, a partial byte or an unconstrained integer at the end of exactly-sized data reads one byte past the buffer. [fits s]: memory is exactly the declared data and the cursor is inside it.

### Strings, patterns, small buffers (`Properties2.v`)

* `C09_refuted`, `C10_refuted`: Without the exclusion of the empty string the property is false: the encoder writes the empty string under a bound of 64K or more, the decoder rejects it.
* `C11_octets_refuted`: The octet string decoder with a size bound below 64K accepts a string whose content is missing and leaves the destination as it was.
* `C38_padding_refuted`, `C38_zero_limit_refuted`: With a non-zero pad bit in the last pattern byte the pattern is never recognised; with nMax = 0 the result is FALSE although the pattern is next.
* `C41_refuted`: Writing one byte too many: the byte after the buffer is overwritten and success is reported.
* `C41_ub_refuted`: With memory ending at the buffer this is undefined behaviour.
* `C42_DecodeUnConstraintWholeNumber_refuted`: False of the unconstrained integer decoder: with length octet 0 the value depends on the bit after the consumed octet.
* `C43_semi_refuted`: Not so for semi-constrained numbers: a longer encoding of the same value is accepted.

### Object identifiers, helpers (`Properties3.v`)

* `C14_joint_iso_refuted`: False for object identifiers in general: {2 999}, legal in ASN.1, is written correctly and read back as {26 39}; the validity predicate rejects it.
* `C14_count_refuted`: The validity predicate does not bound nCount: a struct with nCount = 21 is accepted and the encoder reads outside values.
* `C45_empty_refuted`, `C45_unterminated_refuted`, `C45_overflow_refuted`, `C45_padded_refuted`: The announced octets are exactly those consumed, but they need not be a sequence of subidentifiers: with no octets at all the result is {0 0}; an unterminated last subidentifier is accepted; a subidentifier over 64 bits wraps; a leading 0x80 is accepted.
* `C45_invalid_refuted`: A decoded object identifier need not satisfy the validity predicate.
* `C28_min_refuted`: The side condition: negating INT64_MIN is undefined behaviour in ISO C.
* `C28_width_refuted`: With width 0 or more than 8 the shift is undefined.
* `C29_unsorted_refuted`: On an unsorted table a value that is present may be missed.
* `C37_high_refuted`: A byte of 0x80 and above in the set is never matched by the same char: char is signed.

### Generated uPER code (`Properties4.v`)

* `C30_nul_refuted`: False for strings of variable size containing the character NUL, which IA5String allows: strlen stops there.
* `C30_containing_refuted`: False for OCTET STRING (CONTAINING INTEGER (0..1, ...)): the minimal length is computed as 2 octets, the value takes 2 bits, and the encoder fails.
* `C31_enum_refuted`: Deviations. The encoder writes [ubits false] by C30_encode; these values have a different X.691 encoding. Items of an ENUMERATED declared in non-ascending order, without the efficient mode; the efficient mode is right.
* `C31_alphabet_refuted`: A permitted alphabet all of whose characters fit in the width, here FROM ("0".."z") without "o": X.691 30.5.4 wants the characters themselves.
* `C31_fixed_refuted`: OCTET STRING (SIZE (65536)): the final length of zero is missing.
* `C31_containing_refuted`: CONTAINING: the length is encoded with the computed sizes as bounds, here 1..1 and so not at all, where X.691 has a general length.
* `C31_real_refuted`: REAL: the mantissa is not reduced to an odd number.
* `C32_bit_string_refuted`: False for a BIT STRING (SIZE (0..255)) narrowed to SIZE (7) by WITH COMPONENTS: the stored maximum is that of SIZE (7).
* `C33_extensible_refuted`: False for an extensible INTEGER.
* `C33_64K_refuted`: False for a variable size that may reach 64K.
* `C35_octets_refuted`: The size bound fails for OCTET STRING of variable size below 64K: a length out of range gives an empty string.
* `C35_semi_refuted`: Lower bounds of semi-constrained integers are not enforced by the decoder.
* `C35_overrun_refuted`, `C35_lost_item_refuted`: 65536 items: decoding continues after a failed item, past the end of the input; and when the last item succeeds the failure is forgotten.
* `C35_enum_table_refuted`: An ENUMERATED with items excluded by a constraint, in the efficient mode: the table has the permitted items only, the bound counts all.
* `C41_octets_refuted`: OCTET STRING (SIZE (0..65536)) in a buffer of one byte: TRUE, although the contents do not fit.
* `C42_octets_refuted`, `C42_containing_refuted`: A truncated encoding is accepted for OCTET STRING of variable size below 64K and for OCTET STRING CONTAINING (the missing octets are taken to be zero).

### REAL (`Properties5.v`)

* `C12_small_refuted`: A normal number is read back as zero although its encoding is right.
* `C12_subnormal_refuted`, `C12_minus_zero_refuted`: A subnormal number is written as another number.
* `C12_exponent_length_refuted`: The form with a separate exponent length denotes 6, and is refused.
* `C12_mantissa_refuted`: A mantissa of 2^64 is read as zero.
* `C12_decimal_refuted`: Decimal encodings are read as binary ones: "1.E0" gives 0.
* `C12_canonical_refuted`: The mantissa is not reduced to an odd number (X.690 11.3.1, X.691 15.1).
* `C12_iso_refuted`: In ISO C, reading the encoding of 1.0 shifts a negative number.
* `C08_DecodeReal_refuted`: Without the guard byte: the sign of an absent exponent is read.
* `C08_DecodeReal_overflow_refuted`: With signed overflow undefined, four exponent octets overflow the product.

### ACN run time (`Properties6.v`)

* `C15_milbus_refuted`: False for 0: it is sent as 0 and received as 32.
* `C16_min_refuted`: False for -2^63: int2uint negates it, signed overflow.
* `C16_negative_refuted`: In ISO C the decoder shifts a negative number left.
* `C18_length_refuted`: 17 digits are encoded but not decoded.
* `C18_nibble_refuted`: Nibbles above 9 are accepted by the fixed size decoder.
* `C19_min_refuted`: False for -2^63, and its text makes the decoder negate 2^63.
* `C19_abort_refuted`: On input that is no number the fixed size decoder aborts in a debug build; the terminated one reads it as a number.
* `C19_terminator_refuted`: A terminator of more than ten bytes is written whole; the decoder reads ten.
* `C20_overflow_refuted`: With a terminator of several bytes, input without terminator in the first max + 1 characters makes the decoder write strVal[max + 1], after the array.
* `C20_long_refuted`: With a larger array it returns a string longer than max.
* `C20_index_refuted`: A character above 127 is compared as a negative char and gets index 0.
* `C23_IA5_refuted`: A string of 256 characters, patched twice with itself, is refused.
* `C24_float_refuted`: A double encoded in 32 bits is rounded.

### Constraints, ranges, validity functions (`Properties7.v`)

* `C36_contains_refuted`: That case: INTEGER (0..10)(MIN..5) gets the range 5..10, although 3 is permitted; so does INTEGER (0..10 ^ MIN..5).
* `C36_tight_refuted`: The range is not the tightest: INTEGER (3..MAX)(5..10) is encoded as semi-constrained, and (1 | 10)^(5..20) has 5..10 where only 10 is permitted (X.691 10.3.11 asks for the effective value constraint).
* `C36_empty_refuted`: An empty type is accepted: INTEGER (5<..<6) has the range 6..5.
* `C36_inclusion_refuted`, `C36_addition_refuted`: INTEGER (A | 5) where A ::= INTEGER: every integer is permitted, the range is 5..5. INTEGER (0..10, ..., MIN..MAX): the addition is dropped.
* `C36_serial_refuted`: INTEGER (0..10, ...)(2..5) is not extensible (X.680 50.8) but is encoded with an extension bit and in the range 0..10.
* `C48_negative_refuted`: Unsigned types, negative bounds: INTEGER (((-5..-1) | (3..10)) ^ (0..20)) has an unsigned C type; the bound -1 is printed -1UL and the function accepts 1.
* `C48_except_refuted`: INTEGER (0..10 EXCEPT MIN..-1): every value is rejected.
* `C48_fixed_refuted`: Types of fixed size: SIZE is not checked, so OCTET STRING (SIZE(3))(ALL EXCEPT SIZE(4)) rejects every value.
* `C48_union_refuted`: Unions: SEQUENCE (SIZE(1..3)) OF INTEGER (0..100) with (WITH COMPONENT (0..5) | WITH COMPONENT (10..20)): {12} is rejected, since the loop of the second operand does not run once the first one has failed.
* `C48_optional_union_refuted`: The same for OPTIONAL components: (WITH COMPONENTS {..., a (0..5)}) | (WITH COMPONENTS {..., b (0..5)}) rejects a = 12 without b, which satisfies the second operand.
* `C48_full_refuted`: WITH COMPONENTS {a (0..5)} without "...": b must be absent; not checked.
* `C48_single_value_refuted`: Single values of SEQUENCE OF, SEQUENCE and CHOICE are not checked.

### BER (`Properties8.v`)

* `C25_long_tag_refuted`: Identifiers of five octets or more (tag numbers from 2^21) are written but cannot be read: 0x20 is shifted by 32 or more.
* `C25_length_refuted`: Longer lengths are accepted modulo 2^32, lengths from 2^31 come out negative, 2^32 - 1 as the indefinite form, and the reserved octet 0xFF is accepted.
* `C26_integer_refuted`: Lengths 0 and 9, and the indefinite form, lead to shifts by 64 or more or by a negative amount: undefined.
* `C26_octets_refuted`: A string that does not fit is silently cut; the indefinite form gives the number of octets -1.
* `C26_bits_refuted`: The octet with the number of unused bits is not checked: a negative number of bits is returned. A length of 0 still consumes that octet. A string that does not fit is cut to a multiple of 8 bits, possibly more than the maximum.
* `C26_real_refuted`: A length in the long form, legal in BER, is not understood.
* `C27_put_refuted`, `C27_get_refuted`, `C27_no_spare_byte_refuted`: At the end of the buffer a byte is still written, or read, one past the end.

### XER run time (`Properties9.v`)

* `C40_buffer_refuted`: Over a buffer that does not hold zeros, the text lands elsewhere or beyond the memory.
* `C40_escape_refuted`: A '<' in a string is not escaped, and the string is not read back.
* `C40_attributes_refuted`, `C40_attributes_null_refuted`: Attributes are written without white space before them, so the start of the element is not read back; read from elsewhere, they are stored through NULL.
* `C40_attribute_name_refuted`: A name of 50 characters overruns Name, although a token can have 99.
* `C40_empty_refuted`: An empty element is refused as the start of a constructed value.
* `C40_char_refuted`, `C40_range_refuted`: ISO C: a byte above 127 is outside the domain of isalpha, and a numeral out of range that of atoll.
* `C40_not_numeral_refuted`: Texts that are no numerals are read as numbers.
* `C40_long_octets_refuted`, `C40_long_bits_refuted`: More than 511 octets or 2047 bits are not read back.
* `C40_octets_count_refuted`, `C40_bits_overrun_refuted`, `C40_bits_text_refuted`: The count reported may exceed the array; a bit string longer than the array makes memset overrun it; any character is taken for bits.
* `C40_oid_refuted`: Object identifiers: see C40_decode_oid_partial.
* `C40_enumerated_refuted`: A name of 253 characters overruns tmp.
* `C40_header_refuted`: The header is copied without regard to the size of the buffer.
* `C40_real_infinity_refuted`, `C40_real_small_refuted`: The text of a real: the scaling loop does not end for infinity; below 1e-17 it is 0.

### Generated XER code (`Properties10.v`)

* `C49_integer_refuted`: The check of an INTEGER replaces the result of the decoder: any text is taken for the value that was in the variable.
* `C49_enumerated_refuted`: An unknown name of an ENUMERATED is accepted and the variable left as it was.
* `C49_choice_refuted`: So is a CHOICE without an alternative, and in a list any text at all.
* `C49_items_refuted`: A SEQUENCE OF of a fixed size is accepted with fewer items.
* `C49_fixed_refuted`: An OCTET STRING or BIT STRING of a fixed size is accepted with fewer or more.
* `C49_length_refuted`: One of a variable size is accepted with a length beyond its array.
* `C49_string_refuted`: A string type with a function of its own (sizeof of a pointer is 8) cannot read what it wrote.
* `C49_escape_refuted`, `C49_oid_refuted`: Nor can a string with a '<', or an OBJECT IDENTIFIER, be read back.
* `C49_bits_refuted`: The decoder of a BIT STRING writes outside its array.
* `C50_enumerated_refuted`: Too small for an ENUMERATED whose last name in alphabetical order is short.
* `C50_oid_refuted`: Too small for an OBJECT IDENTIFIER with large arcs.
* `C50_alias_refuted`: Too small for a list of a type that is another name of a CHOICE: the items get a tag that is not counted.
* `C50_white_refuted`: Too small when the stream asks for white space.

### Streaming (`Properties11.v`)

* `C39_stale_refuted`: With the pushData of the documentation, which keeps the block as it is, zeros are not written: after 8 bytes, 0 in the range 0..1000 comes out as 1023.
* `C39_stale_part_refuted`: A part of a byte that crosses into the next one keeps old bits as well.
* `C39_small_block_refuted`: Blocks shorter than 8 bytes: 0 in the range 0..2^24-1 needs 3 bytes of zeros.
* `C39_octets_refuted`, `C39_bits_lost_refuted`: Octet strings over the end of a block: from the start of a byte, each block gets the start of the string again, and the decoder writes each block over the start of the array.
* `C39_read_integer_refuted`: An integer of 10 bits, read over the end of a block.
* `C39_word_refuted`: Alignment to words counts from the start of the block: byte 10 for blocks of 6 bytes, not 12.

Found while reading, but outside the model (no theorem): `TIME` types have the
minimal and maximal size swapped (AcnCreateFromAntlr.fs:379-380); XER decoding
into a C integer narrower than 64 bits writes 8 bytes through the narrower
pointer (`slim` integer types); `checkBitPatternPresent` in streaming mode
rewinds over a block that is already gone; the streaming example of the
documentation drops the last, incomplete byte of a message (it writes
`currentByte` bytes, not `BitStream_GetLength`).

### Generated ACN code (`Properties12.v` to `Properties14.v`)

* `C51_mapping_refuted`: `TwosComplement_ConstSize_big_endian_16_decode`
  (acn_c.stg:226-229) lacks the call of the mapping function: a mapped integer
  of that size comes back mapped.
* `C51_unused_refuted`: a determinant whose consumers are all absent is not
  initialised; encoding then fails, although decoding produces such values.
* `C51_terminator_refuted`: contents that contain the termination pattern are cut
  without an error on either side.
* `C51_nested_refuted`: `checkBitPatternPresentResult` is one variable for all
  terminated lists of a function; after an inner list the outer one, when full,
  does not consume its own terminator.
* `C51_encode_values_refuted`: in efficient mode an ENUMERATED with ACN
  encode-values is written with the values of the ASN.1 definition.
* `C53_refuted`: `GetOctetBitSeqofEncodingClass` (AcnEncodingClasses.fs:222-226)
  takes the maximal size of an item for the minimal size of a list.
* `C54_length_refuted`: the test of a length field against the array is left out
  when the ASN.1 type of the field allows no more (AcnOctetBitStrings.fs:61-65),
  but decoding the field does not check that type: a larger length overruns the
  array.
* `C54_negative_refuted`, `C54_items_refuted`: a signed length field without lower
  limit gives a negative copy size; for a list the limit is tested before the
  conversion to `int`.
* `C54_string_refuted`: a terminated string that is too long writes one octet
  behind the array.
* `C54_alignment_refuted`: alignment to 16 or 32 bits can leave the data, and the
  next bit is read there.
* `C54_assert_refuted`: with asserts, text that is not a number ends the program.
* `C55_real_refuted`: the result of `Acn_Dec_Real_IEEE754_32_little_endian` is not
  tested: a 32 bit REAL in little endian is accepted without any data.
* `C55_terminator_refuted`: a list with a terminator that reaches its maximal
  length is accepted when the terminator is missing, with `nCount` not set.
* `C55_nested_refuted`: a terminated list of terminated lists is accepted without
  its terminator, depending on bits that are not consumed.
* `C55_octets_refuted`: when the length of an OCTET STRING cannot be read the
  string is taken to be empty and accepted.
* `C55_negative_refuted`: a negative length at a cursor inside an octet moves the
  cursor back (asn1crt_encoding.c:388-408), even to before the start of the
  buffer, and is accepted; the next component is then read there.

### Initialisation functions (`Properties15.v`)

* `C56_except_refuted`: INTEGER (1..10)(ALL EXCEPT (1 | 10)) is initialised with 0.
* `C56_single_value_refuted`: a value that is only excluded (ALL EXCEPT v) is used
  to initialise an OCTET STRING or BIT STRING.
* `C56_size_refuted`: the least size of the effective range need not be permitted.
* `C56_string_refuted`: single-value and unprintable alphabets of IA5String.
* `C56_oid_refuted`: OBJECT IDENTIFIER is left with no arcs.
* `C56_choice_refuted`: the first alternative is chosen even if it is ABSENT.
* `C56_reference_refuted`: B ::= A (WITH COMPONENTS ...) is initialised by
  A_Initialize; the comparison of the two types looks at no inner constraints.
* `C56_default_refuted`: a BIT STRING of variable size gets the number of octets of
  its DEFAULT as nCount (DAstInitialize.fs:485-495); decoders that store the
  DEFAULT of an absent component use the same function.
* `C56_with_component_refuted`: a WITH COMPONENT constraint inside a union or
  intersection is not merged into the item type; the items ignore it.
* `C56_constant_refuted`: constant initialisers ignore constraints.

### Equality functions (`Properties16.v`)

* `C57_reference_refuted`: for Derived ::= Base (SIZE (5)) with Base of variable
  size, the C type has nCount but the code for Derived neither sets nor checks
  it, while Derived_Equal compares it: a decoded value need not be equal to the
  value encoded.
* `C57_default_refuted`: an absent component with DEFAULT and the component present
  with that value are reported different.
* `C57_real_refuted`, `C57_nan_refuted`: REAL equality is not transitive, and NaN is
  not equal to itself.
* `C57_bounds_refuted`: strings without terminator and nCount beyond the array are
  read past the end.

### Bit strings accepted by the uPER decoders (`Properties17.v`)

The theorems of C58 hold for `UperCanon.canonical`. Everything left out of that
class accepts bit strings that are not encodings:

* `C58_nul_refuted`: an IA5String of variable size with NUL among its characters is
  cut at the NUL, and may then be shorter than its SIZE allows.
* `C58_octets_refuted`: the length of an OCTET STRING is read without looking at the
  result; an undecodable length is taken for the minimum.
* `C58_semi_refuted`, `C58_integer_refuted`: leading zero octets of unbounded integers.
* `C58_extension_refuted`: root values in the form for extension additions.
* `C58_oid_refuted`, `C58_real_refuted`: leading zeros of subidentifiers, exponents in
  more octets than needed.
* `C58_length_refuted`: lengths below 128 in two octets.
* `C58_absent_refuted`, `C58_present_refuted`: the presence bit of a component that
  WITH COMPONENTS makes ABSENT or PRESENT is not compared.
* `C58_containing_refuted`: the bits after a contained value are skipped.

### Bit strings accepted by the ACN decoders (`Properties18.v`)

The theorems of C59 hold for `AcnCanon.exact` and for results that pass
`AcnCanon.whole`, which the check of the constraints would find. Left out, with a
witness each:

* `C59_padding_refuted`: bits skipped by align-to-next are not looked at.
* `C59_boolean_refuted`: with true-value only, every other pattern is FALSE.
* `C59_null_refuted`: the pattern of a NULL with save-position is skipped, not
  compared.
* `C59_bcd_refuted`, `C59_text_refuted`, `C59_leading_refuted`: nibbles above 9, "-0",
  leading zero octets.
* `C59_wrap_refuted`, `C59_narrow_refuted`: digits that exceed 64 bits, and an encoding
  wider than the C variable, lose their upper part without an error.
* `C59_nul_refuted`, `C59_octets_refuted`: as for uPER.
* `C59_length_refuted`: a size field is tested against the bounds of its own type
  only, not against the minimum of the list.
* `C59_nan_refuted`, `C59_short_refuted`: why `whole` is required.
* `C59_unused_refuted`: a size field whose only consumer is absent can have any value
  (see C51_unused_refuted); `served` excludes it.

### ACN properties accepted by the compiler (`Properties19.v`)

* `C60_text_refuted`: the lower limit of fixed size ASCII is off by one:
  INTEGER (-10..9) with 16 bits is accepted, -10 needs three characters; the encoder
  aborts, or without assertions writes text that is read as 0.
* `C60_unsigned_text_refuted`: the size of unsigned text is checked as if it had a
  sign, so (0..99) in two characters is rejected.
* `C60_terminator_refuted`: a terminator that is empty or starts with a digit is
  accepted.
* `C60_bcd_refuted`: BCD with a terminator is accepted for negative ranges.
* `C60_size_type_refuted`, `C60_enum_refuted`: a size determinant, or the values of an
  ENUMERATED with encode-values, of the uPER class is not checked.
* `C60_size_width_refuted`: with slim types the C variable of a size determinant
  can be smaller than the sizes it has to hold, or of the other sign.
* `C60_word_refuted`: with word size 4 a size of 64 bits is accepted.

Not formalised: unsigned classes with a signed narrow C type would call run-time
functions that do not exist (e.g. `Acn_Dec_Int_BCD_VarSize_NullTerminatedInt8`).

### Order of definitions (`Properties20.v`)

* `C61_split_refuted`: the sort relies on its callers to separate the nodes that
  depend on nothing.
* `C61_cycle_refuted`: an unknown name is reported as a cycle.
* `C61_duplicate_refuted`: names must be distinct.

### ENUMERATED items (`Properties21.v`)

* `C62_order_refuted`: ENUMERATED { a, b(0) } numbers a with 1 and b with 0, but the
  switch (the default) writes the position, so a is 0 on the wire (X.691 14 wants 1);
  with option `-eee` the same file gives the right bits. See also `C31_enum_refuted`.
* `C62_codes_refuted`, `C62_mixed_refuted`: encode-values accepts the same code for
  two items. (The C compiler then rejects the decoder, which has the case twice.)

### Tags (`Properties22.v`)

The specification `ubits true` of C31 takes the order of the text for that of the
tags; C63 makes the difference precise.

* `C63_choice_refuted`: CHOICE { a INTEGER, b BOOLEAN } without AUTOMATIC TAGS.
* `C63_tag_refuted`: written tags in descending order.
* `C63_set_refuted`: SET components are not put in the order of their tags.

### Present-when expressions (`Properties23.v`)

The text is always read by C as meant (C64_text), and its value is right when every operation fits
its C type (C64_fits); what is wrong lies elsewhere.

* `C64_flag_refuted`: `ret = exist == (expression)` is followed by `if (exist) { ... }`
  without a test of ret. If encoding the component assigns ret (references, octet
  strings, ...), a component marked present against its expression is encoded and the
  error is lost; the decoder reads it as the next component.
* `C64_order_refuted`: the expression may use a component that comes later; the decoder then
  evaluates old memory.
* `C64_path_refuted`, `C64_nested`: `a.x.y` is accepted for `a INTEGER` and means `a`, while no
  component of a component can be referenced (`xs.Length > 1` should be `>= 1`).
* `C64_constant_refuted`: a named constant is printed as the empty text; the C file does not compile.
* `C64_boolean_refuted`, `C64_modulo_refuted`: not BOOLEAN, and `%` of REALs, are accepted.
* `C64_unsigned_refuted`: `-1 < a` is false for an unsigned `a`.
* `C64_overflow_refuted`, `C64_literal_refuted`: undefined behaviour by overflow or division by zero,
  and constants without a C type.

### Names of enumerated items (`Properties24.v`)

Of what C puts into one name space (enumerators, alternatives, constants), enumerators are kept apart from
one another and alternatives from one another (C65_unique).  What is wrong:

* `C65_values_refuted`: two modules with a value of the same name.  Values are never renamed, so
  `handleEnums` calls itself forever, with every policy that renames.
* `C65_deleted_refuted`: with AllEnumerants the prefix is what remains of the new name when the item's name
  is deleted from it, at every place (line 243).  For `Ta` and `Taa` with an item `a` both prefixes are
  `T_`; the recursion does not end and the names double in length.
* `C65_nested_refuted`: with AllEnumerants the new alternatives are made from the old list (line 67), so
  CHOICEs within CHOICEs are never renamed; endless.
* `C65_constant_refuted`: items are compared with `vas.Name.Value`, not with its C name: `my-val` twice.
* `C65_present_refuted`: item `a-PRESENT` and alternative `a` are both `a_PRESENT` in C.
* `C65_keyword_refuted`: `c_keywords` has the keywords of C89; `inline` and `restrict` pass.
* `C65_refused_refuted`: parts of the path that occur in the name are skipped by `Contains`; if all do,
  `Seq.head` raises and a correct grammar is refused.

Not modelled: field prefixes (handleSequencesAndChoices), AlwaysPrefixTypeName, names for Ada and Scala.

### C constants of value assignments (`Properties25.v`)

Under `tame` (what C itself and the templates need) the printed definition has one reading and initialises
an object that represents the value (C66_constants, C66_unambiguous).  What is wrong:

* `C66_bits_refuted`: `nCount` of a BIT STRING constant is the number of bytes, not of bits; right exactly
  for at most one bit (C66_bits).
* `C66_quotes_refuted`, `C66_quotes_dropped`: quotes in strings are doubled as in Ada; C joins the pieces and
  the quotes are lost.  Right exactly when there are none (C66_quotes).  The front end does not turn the
  `""` of ASN.1 into `"` either (CreateAsn1AstFromAntlrTree.fs 180-182).
* `C66_backslash_refuted`: backslashes are not escaped.
* `C66_absent_refuted`: when all components are OPTIONAL and absent, the text begins `{ ,`; not C.
* `C66_empty_refuted`: values without octets or elements give `{}`, not C99 (a GNU extension).
* `C66_subtype_refuted`: a fixed size subtype of a variable size type prints no `nCount` although the
  declared type has it; elements land in the wrong members.
* `C66_arc_refuted`: arcs of 2^63 and more have no suffix and no C type.
* `C66_exist_refuted`: a component named `exist` collides with the member of the presence bits.

Not modelled: REAL and TIME values, octet strings given for BIT STRING and the reverse, trigraphs.

### Parameterized types (`Properties26.v`)

`model r P V` says that P gives every type, for all actual parameters, the values of its definition.  Grammars
without cycles have exactly one (C67_meaning_exists, C67_meaning_unique).  Under `hygienic`, `distinct` it is
also a model of the result (C67_same_meaning), in which no parameters are left (C67_no_parameters).  Without
extensible constraints the pass returns (C67_returns).  What is wrong:

* `C67_extensible_refuted`: for `(c, ...)` CloneConstraint calls itself with the same constraint (line 116,
  `c` for `c1`): any template with an extensible constraint makes the compiler run until its stack ends.
* `C67_contained_refuted`: `OCTET STRING (CONTAINING Y)` of a parameter `Y` becomes the contained type itself.
* `C67_components_of_refuted`, `C67_inclusion_refuted`, `C67_inner_argument_refuted`: in `COMPONENTS OF Y`,
  `(INCLUDES Y)` and `Inner {SEQUENCE OF Y}` the parameter stays and names no type.
* `C67_passed_value_refuted`: `T {INTEGER:n} ::= Inner {n}` leaves `n` in the components of `Inner`.
* `C67_nested_refuted`: `T {SEQUENCE OF U {INTEGER}}` keeps `U {INTEGER}` although `U` is removed.
* `C67_capture_refuted`: a value of the module named in an actual parameter is replaced when the template has
  a parameter of that name; so is an item of an ENUMERATED (`C67_item_refuted`).
* `C67_bound_refuted`: `Y (0..max)` is refused when `max` is a value of the module.
* `C67_constrained_argument_refuted`: of the actual parameter `Y (0..5)` only `Y` is kept.

Not modelled: implicit imports of types and values into the module of the use, merging of the ACN
specification, units.

### Values written in a grammar (`Properties27.v`)

`den` says which value a notation means for a type, `values_of` which values a type has, both from X.680.
A notation that fits its type is always recognised (C68_notation), and what is recognised means a value, order
and repetition of SEQUENCE components apart (C68_fits_partial).  For values written without names of values
the checks end and accept exactly the values of the type (C68_accepts_partial, C68_conforms_partial), for the
constraints of `tame`.  Equality of values and single constraints have their own theorems (C68_equality,
C68_constraint, C68_mixed, C68_string_order, C68_unknown_name).  What is wrong:

* `C68_names_refuted`, `C68_modules_refuted`: two names of values are compared as names, and line 140
  compares a module with itself.  `INTEGER (five) DEFAULT cinq` is refused; `A.x` equals `B.x`.
* `C68_enumerated_refuted`: a named value of an ENUMERATED type is refused.
* `C68_optional_refuted`: `WITH COMPONENTS {a (0..5) OPTIONAL}` refuses a value without `a`.
* `C68_inclusion_refuted`: `INTEGER (T)`, `T ::= U`, checks the constraints written in `T` only.
* `C68_inner_size_refuted`: `SIZE` of OCTET STRING and BIT STRING within WITH COMPONENT(S) refuses all values.
* `C68_alphabet_refuted`, `C68_alphabet_except_refuted`: under a set operator in `FROM` a string is compared
  with the single character.
* `C68_named_sequence_refuted`: the components of a named SEQUENCE value are not checked.
* `C68_order_refuted`: components may come in any order and repeatedly.
* `C68_choice_refuted`: `PRESENT` in WITH COMPONENTS of a CHOICE is ignored.
* `C68_real_refuted`: REAL values are cut to integers before they are compared with INTEGER bounds.
* `C68_cycle_refuted`: with `a INTEGER ::= b`, `b INTEGER ::= a` the check does not end.

### Names of the C types (`Properties28.v`)

The six register functions are one function of the class of type here; the order in which the types of a
grammar are registered is left open, so the theorems hold for every order.  All names reserved are distinct
and no keywords (C69_unique), what a reference is told is what the type is called in the end (C69_answers),
names that are distinct to begin with are kept (C69_plain), and the search for a name ends
(C69_returns_partial: for a type prefix without underscore).  What is wrong:

* `C69_overflow_refuted`: the number at the end of a name is an Int32.  A field `a-2147483647` of `T` beside a
  type `T-a-2147483647` is called `T_a_-2147483648`, which is not C.
* `C69_own_name_refuted`: of `A.T`, `B.T` and `B.B-T` the last becomes `B_T_1` although nobody else is called
  `B-T`.
* `C69_functions_refuted`, `C69_library_refuted`: a type `T-Encode` has the name of the encoder of `T`, a type
  `Token` that of a type of asn1crt.h.
* `C69_base_refuted`: registerPrimitiveTypeDefinition uses the state before the base type was registered (line
  146).  Harmless as long as bases are type assignments, which are registered before.

Not modelled: mergeType, which decides what is registered; other target languages.

### Named bits, COMPONENTS OF and values (`Properties29.v`)

C70_components and C70_named_bits are exact.  C70_values says that a resolved value means nothing but what the
value meant as written, C70_values_resolved that a value which means something is resolved and keeps its
meaning up to trailing zeros of BIT STRING values, both for grammars that are `orderly`: names of values stand where the type they are
declared with is expected, names of ENUMERATED values are of the module of the type, named bits are within the
size and not given as `{}`.  C68 checks the resolved values.  What is wrong:

* `C70_enum_names_refuted`: the module of a name of an ENUMERATED value is replaced by that of the type.  With
  `M1.a` red and `M2.a` green, `b Color ::= a` in `M2` is red.
* `C70_named_bit_lost_refuted`: `{b}` of `BIT STRING {b(9)} (SIZE(4))` is '0000'B, not an error.
* `C70_no_bits_refuted`: `{}` is refused for a BIT STRING.
* `C70_size_zero_refuted`: the last position for SIZE(0) is computed in UInt32, so that a list of 2^32 bits is
  made.
* `C70_size_of_reference_refuted`: the size is that of the type behind the reference, so `{a}` of
  `G ::= F (SIZE(10))` is one bit long (and then refused).
* `C70_components_alias_refuted`, `C70_components_cycle_refuted`: COMPONENTS OF a name for a name of a SEQUENCE
  is refused; a SEQUENCE with its own COMPONENTS OF makes the compiler run for ever.
* `C70_string_names_refuted`: `{"a", n}` is refused when `n` is the name of a string.

Not modelled: constraints other than those of BIT STRING, NumericString, TIME and OBJECT IDENTIFIER values.

### Texts of TIME values (`Properties30.v`)

`createTimeValueFromString` reads every text of the standard as what it means
(`C71_read_written`), and values in range only (`C71_read_in_range`).  What else it reads is
characterized exactly (`C71_read_exact`):

- `C71_extra_parts_refuted`: "2020-05-16-99" is read as "2020-05-16", "12:00:00.5.7" as
  "12:00:00.5": the number of parts of a date and of the seconds is not looked at.
- `C71_not_written_refuted`: the characters of a zone are not checked and BigInteger.TryParse
  permits blanks and signs: "12:00:00++2: 0" is read as "12:00:00+02:00".
- `C71_calendar_refuted`: 31 February is read.
- `C71_precision_refuted`: the number of digits of the fraction that the type fixes is ignored.
- `C71_crash_exact`, `C71_cut_date_refuted`: a date that stops after the year or the month
  ("2020-05") ends the compiler with an IndexOutOfRangeException; these are the only such texts.

Printing (`asn1DateTimeValueToString`) gives a text that is read back as the same value exactly
if no field needs a leading zero (`C71_print_exact`):

- `C71_print_zeros_refuted`: "09:05:03" is printed as "9:5:3", which is refused.
- `C71_print_fraction_refuted`: ".05" is printed as ".5", another fraction.
- `C71_print_date_time_refuted`: a date with a time is printed without the T and never read back.

### SETTINGS of TIME types (`Properties31.v`)

Settings in any order and with blanks between them are read as their class (`C72_words`); the texts
that are read are exactly those whose characters other than spaces are the settings in some order and
whose tabulators and line ends stand beside an equals sign (`C72_exact`).  What is wrong:

* `C72_fraction_refuted`, `C72_precision`: `Seq.toArray |> string` turns the digits after HMSF into
  "System.Char[]", which Int32.Parse refuses: every HMSFn ends the compiler with a FormatException,
  so no TIME type ever has a fraction.
* `C72_fraction_first_refuted`: the test is `i > 0`, so that HMSFn as the first setting is refused as
  an invalid definition.
* `C72_line_end_refuted`: a line end or a tabulator between two settings is refused.
* `C72_blanks_refuted`: blanks within words are ignored, "Ba sic=TimeTime=HM S..." is read.

### References between modules (`Properties32.v`)

What CheckFiles and the front end accept is characterized by `C73_check_exact` and
`C73_accepted_exact`, the meaning of a name by `C73_plain_names`, the imports added for references
to other modules by `C73_imports`, and the search for a type by `C73_lookup`.  What is wrong:

* `C73_private_refuted`: CheckType looks for every reference in ExportedTypes, also for those to the
  module itself: EXPORTS A; A ::= SEQUENCE { b B }, B ::= INTEGER is refused.
* `C73_external_refuted`: an external reference B.T becomes an import of T and then clashes with
  another T of the module or with A.T.
* `C73_module_name_refuted`: CreateRefTypeContent looks among all UID children of the import clause,
  the first of which is the name of the module.  With IMPORTS X FROM Pos the own type Pos is not
  found, the type Pos.Pos can be used without importing it, and a value of the own type Pos gets the
  type Pos.Pos.
* `C73_reexport_refuted`: an imported type cannot be imported by a third module.
* `C73_export_refuted`: EXPORTS may list names that are not defined.
* `C73_mutual_refuted`: modules that import from each other are refused though no type is cyclic.
* `C73_missing_module_refuted`: the message for a missing module is dead code; the cycle check, which
  runs first, reports a cycle.
* `C73_second_clause_refuted`: of two clauses for one module only the first survives the merge.
* `C73_endless_refuted`: on modules not yet checked the search for a type may not end.

### Constraints a type may have (`Properties33.v`)

`C74_exact` and `C74_compatible_exact` characterize what isConstraintValid and AreTypesCompatible
accept, for any check of values.  What is wrong:

* `C74_enum_refuted`: `names2` is made of `items1`, so that ENUMERATED { red, green } may include
  ENUMERATED { yes, no }.
* `C74_sequence_refuted`: `sameNames = c1 = c2` compares whole components, places in the source
  included; two SEQUENCE types with the same components are never compatible.
* `C74_present_refuted`: WITH COMPONENTS {a PRESENT, b PRESENT} is accepted for a CHOICE.
* `C74_order_refuted`: INTEGER (5..1) is accepted.
* `C74_alphabet_refuted`: FROM (SIZE (1)) and FROM (FROM (..)) are accepted.

### Names of components (`Properties34.v`)

`identifiers` (letters, digits and hyphens) and `as_read` (c_name is ToC of the name; `C75_read`) are what
the parser guarantees.  What is wrong:

* `C75_auto_refuted`: with --field-prefix AUTO the struct of a in
  SEQUENCE { a SEQUENCE { int INTEGER, a-int INTEGER } } has two fields a_int.  `C75_auto_distinct_partial`
  excludes hyphens.
* `C75_user_refuted`: a prefix of the user switches the check for keywords off, but components of
  components do not get the prefix: SEQUENCE { a SEQUENCE { int INTEGER } } has a field int.
* `C75_user_makes_keyword_refuted`: the prefix in and the component t make the field int.
* `C75_c99_refuted`: inline and restrict are not in the list of keywords of C.
* `C75_module_refuted`: a component is compared with `m.Name.Value.ToLower()`, without ToC; modules with
  hyphens are never found.
* `C75_case_refuted`: components of a SEQUENCE that differ in case only are accepted (CHOICE: refused), which
  Ada does not distinguish.

### Calls of the uPER functions of referenced types (`Properties35.v`)

`sound` and `reflexive` are what is assumed of the equality of F# for lists of constraints and optionality.
A reference whose types are not found equivalent is encoded by code of its own, which is correct but longer:

* `C76_oid_refuted`: OBJECT IDENTIFIER is not in the list of cases (neither are TIME types), so a reference to a
  type that contains one never calls its functions.
* `C76_complete_refuted`: INTEGER (0..10) and INTEGER (0..10)(0..10) are not equivalent.

## 5. Assumptions per theorem

Each `PropertiesN.v` ends with `Print Assumptions` of the tuple `theoremsN` of
all its theorems; the build prints "Closed under the global context" for each
of them.  So no theorem of MANIFEST.json depends on an axiom, not even one of
the standard library.  (The gate's `library_axioms` are sealed module types of
ssreflect in the environment, not used by any theorem.)

Preconditions that the theorems make explicit: memory of at least `count`
bytes, and one more readable byte for decoders where stated; `Forall is_byte`
for byte arrays; arguments in the range of their C type (`is_s64`, `is_u64`,
...); the configuration (`sfits`, `shl_wrap`, `ndebug`) where undefined
behaviour or an assert would otherwise be reached; zeroed buffers for encoders
that OR bits in (`writes`).

## 6. Mutation testing

`seeded/LOG.jsonl` has one line for every wrong version of a definition that
was tried: the edit, the claim it should break, the lemmas and theorems that
failed, and the theorems that were added or tightened where the first attempt
survived.
