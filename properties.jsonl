{"id": "C01", "title": "Fixed-width unsigned integers round-trip and are range checked", "statement": "For a width n of 1..64 bits, WriteUnsignedBits(v, n) succeeds exactly when v < 2^n; then it appends exactly n bits, most significant first, and ReadUnsignedBits(n) at the same place returns v and leaves everything after those n bits unread. When v >= 2^n it returns ErrValueOutOfBitRange and writes nothing. WriteUint8/16/32/64 never reject.", "quantifier": "all widths 1..64, all uint64 values, all bits already written, all bits following in the stream", "why_tests_cant": "2^64 values times 64 widths times every neighbouring stream content; a boundary error at one width is invisible to samples", "anchors": ["ztype/bits_encode.go:WriteUnsignedBits", "ztype/bits_decode.go:ReadUnsignedBits", "zstream/writer.go:BitWriter.WriteBits", "zstream/reader.go:BitReader.ReadBits"]}
{"id": "C02", "title": "Fixed-width signed integers round-trip and are range checked", "statement": "For a width n of 1..64, WriteSignedBits(v, n) succeeds exactly when -2^(n-1) <= v < 2^(n-1); then it appends exactly the n-bit two's complement of v and ReadSignedBits(n) returns v with the rest of the stream untouched. Otherwise it returns ErrValueOutOfBitRange and writes nothing.", "quantifier": "all widths 1..64, all int64 values, all stream contexts", "why_tests_cant": "the negative branch uses wrapping 64-bit arithmetic ((1<<bits)|uint64(value+(1<<bits))) whose correctness at widths 63 and 64 depends on overflow", "anchors": ["ztype/bits_encode.go:WriteSignedBits", "ztype/bits_decode.go:ReadSignedBits"]}
{"id": "C03", "title": "varuint16/32/64 and varuint round-trip exactly on their range", "statement": "WriteVaruintX(v) succeeds exactly when v <= MaxVaruintX; the matching ReadVaruintX then returns v, consumes exactly the bytes written, and leaves whatever follows untouched. Out-of-range values return ErrOutOfBounds and write nothing.", "quantifier": "all four types, all values of the Go argument type, all stream contexts", "why_tests_cant": "continuation-bit boundaries differ per type and the last byte carries 8 bits; 2^64 values cannot be enumerated", "anchors": ["ztype/varuint_encode.go:writeVarUint", "ztype/varuint_decode.go:ReadVaruint16", "ztype/varuint_decode.go:ReadVaruint"]}
{"id": "C04", "title": "varint16/32/64 and varint round-trip, except the varint64 minimum", "statement": "WriteVarintX(v) followed by ReadVarintX returns v for every v in the documented range, consumes exactly the bytes written, and rejects every other v with ErrOutOfBounds and no output. The single exception is WriteVarint64(MinInt64): it is outside the documented range, is nevertheless accepted, writes the byte 0x80, and reads back as 0.", "quantifier": "all four types, all values of the Go argument type, all stream contexts", "why_tests_cant": "the exception comes from negating the most negative int64, one value in 2^64", "anchors": ["ztype/varint_encode.go:writeVarInt", "ztype/varint_encode.go:SignedBitSize", "ztype/varint_decode.go:ReadVarint64"]}
{"id": "C05", "title": "varsize bounds are enforced on both sides", "statement": "WriteVarsize(v) succeeds exactly when v <= 2^31-1 and ReadVarsize returns that v. ReadVarsize never returns a value above 2^31-1 for any input bytes: an encoding of a larger number yields ErrOutOfBounds.", "quantifier": "all uint64 arguments, all input streams", "why_tests_cant": "the wire format can express 36-bit values; the bound must hold for every hostile input", "anchors": ["ztype/varuint_encode.go:WriteVarsize", "ztype/varuint_decode.go:ReadVarsize", "ztype/limits.go:MaxVarsize"]}
{"id": "C06", "title": "Predicted variable-length integer sizes equal the bits written, and are the shortest possible", "statement": "UnsignedBitSize(v, m) / SignedBitSize(v, m) return exactly the number of bits the corresponding writer emits, fail exactly when the writer fails, and no encoding with fewer bytes of the same format decodes to v.", "quantifier": "all values, all byte limits used by the library (2, 4, 5, 8, 9)", "why_tests_cant": "size prediction and emission are two separate loops over the same boundaries", "anchors": ["ztype/varuint_encode.go:UnsignedBitSize", "ztype/varint_encode.go:SignedBitSize"]}
{"id": "C07", "title": "Scalar encodings are unambiguous", "statement": "For each scalar type, the encodings of two different values are different and neither is a prefix of the other, so a sequence of values can be decoded in only one way.", "quantifier": "all pairs of values of each scalar type, any following bits", "why_tests_cant": "quantifies over pairs of arbitrary values", "anchors": ["ztype/varuint_encode.go", "ztype/varint_encode.go", "ztype/bits_encode.go", "ztype/string_encode.go"]}
{"id": "C08", "title": "Strings round-trip", "statement": "WriteString(s) succeeds for every byte string of at most 2^31-1 bytes, at any bit offset; ReadString returns s and leaves the rest of the stream untouched; BitSizeOfString(s) equals the number of bits written.", "quantifier": "all byte strings, all bit offsets, all stream contexts", "why_tests_cant": "unbounded length and arbitrary bit offset", "anchors": ["ztype/string_encode.go:WriteString", "ztype/string_decode.go:ReadString", "ztype/string_encode.go:BitSizeOfString"]}
{"id": "C09", "title": "Byte buffers round-trip when their declared size matches", "statement": "WriteBytes followed by ReadBytes returns the same buffer if and only if the declared ByteSize equals the buffer length (and is at most 2^31-1). WriteBytes does not check this: for any other combination it still returns success and the reader then sees something else.", "quantifier": "all ByteSize/Buffer combinations, all stream contexts", "why_tests_cant": "the mismatch cases are exactly those tests do not construct", "anchors": ["ztype/bytes_encode.go:WriteBytes", "ztype/bytes_decode.go:ReadBytes"]}
{"id": "C10", "title": "Extern bit buffers round-trip when the buffer has exactly the needed bytes", "statement": "For an extern value with BitSize b <= 2^31-1, a buffer of exactly ceil(b/8) bytes and zero padding bits, WriteExtern then ReadExtern returns the same value. A buffer that is too short to hold the full bytes panics; a buffer longer than needed with b not a multiple of 8 silently takes the trailing bits from the last byte of the buffer, not from byte b/8.", "quantifier": "all bit sizes, all buffers, all stream contexts", "why_tests_cant": "buffer length and bit size vary independently", "anchors": ["ztype/extern_encode.go:WriteExtern", "ztype/extern_decode.go:ReadExtern"]}
{"id": "C11", "title": "Scalar decoding is prefix-determined and truncated input is always an error", "statement": "Whether a scalar decode succeeds, its result and its consumption depend only on the bits it consumes; if the same bits are cut anywhere before the end of the encoding the decode returns an error, never a value and never a panic.", "quantifier": "all scalar types, all input streams, all cut points", "why_tests_cant": "every cut point of every encoding", "anchors": ["ztype/varuint_decode.go", "ztype/varint_decode.go", "ztype/bits_decode.go", "ztype/string_decode.go", "ztype/bytes_decode.go", "ztype/extern_decode.go"]}
{"id": "C12", "title": "The byte-cached bit writer and reader implement an ideal bit stream", "statement": "Any sequence of WriteBits/WriteBool/WriteByte/Write calls produces, after Close, the concatenation of the written bits most significant first, zero padded to a whole byte; the bit reader over any byte string returns exactly the successive bits of that string, and fails only when it runs out. BitPosition equals the number of bits written.", "quantifier": "all adaptive sequences of operations with field widths 1 to 64 (a zero-width read may return a stale value), all byte strings", "why_tests_cant": "the cache state (0..7 pending bits) couples every call to all the earlier ones", "anchors": ["zstream/writer.go:BitWriter", "zstream/reader.go:BitReader", "go.mod:github.com/icza/bitio v1.1.0"]}
{"id": "C13", "title": "Align moves to the next multiple of the boundary and reader and writer agree", "statement": "Align(b) with b > 0 appends (skips) the least number of bits that makes the position a multiple of b, changes nothing when already aligned, returns the new position, and CountAlignBits predicts the same number. b = 0 panics on both sides. Each boundary above 249 loses padding bits at some position in the byte-cached writer, because the cached bit count is kept in 8 bits.", "quantifier": "all positions, all boundaries 0..255", "why_tests_cant": "position is unbounded; the overflow appears only for specific position/boundary pairs", "anchors": ["zstream/writer.go:BitWriter.Align", "zstream/reader.go:BitReader.Align", "zstream/reader.go:discard", "ztype/bit_alignment.go:CountAlignBits"]}
{"id": "C14", "title": "Marshal yields the encoding padded to a byte, and Unmarshal ignores what follows", "statement": "Marshal returns exactly ceil(bits/8) bytes: the bits written by MarshalZserio followed by zero bits. Unmarshal of those bytes with any bytes appended gives the same result as Unmarshal of those bytes alone. When MarshalZserio fails, Marshal returns no bytes and the error.", "quantifier": "all values of a marshalable type, all appended byte strings", "why_tests_cant": "all values and all suffixes", "anchors": ["marshal.go:Marshal", "marshal.go:Unmarshal"]}
{"id": "C15", "title": "Delta-packed integer sequences round-trip", "statement": "For every element type whose values fit 64 bits and every non-empty sequence of in-range values, writing the sequence through one delta context (after initialising it with the same sequence) and reading it back through a fresh context returns the same sequence, whichever representation (packed or plain) the context chose, and leaves following bits untouched.", "quantifier": "all integer, bit field, bool and enum element types, all sequences of any length, including sequences whose successive differences exceed 62 bits or wrap around 64 bits", "why_tests_cant": "the packed/plain decision depends on the whole sequence", "anchors": ["ztype/delta_context.go:DeltaContext.Init", "ztype/delta_context.go:DeltaContext.Write", "ztype/delta_context.go:DeltaContext.Read"]}
{"id": "C16", "title": "Delta packing predicts its size and never costs more than one descriptor bit", "statement": "The sum of DeltaContext.BitSizeOf over the sequence equals the number of bits Write emits for it, provided the element size function is exact; and that is never more than one bit larger than storing the elements plainly.", "quantifier": "all element sequences", "why_tests_cant": "quantifies over all sequences", "anchors": ["ztype/delta_context.go:DeltaContext.BitSizeOf", "ztype/delta_context.go:DeltaContext.finishInit"]}
{"id": "C17", "title": "Arrays round-trip", "statement": "For every element type whose element codec round-trips, MarshalZserio of an array followed by UnmarshalZserio of an array with the same configuration (auto length, or fixed length equal to the number of elements) gives the same elements in the same order and consumes exactly the bits written. An auto array longer than 2^31-1 elements is rejected.", "quantifier": "all element codecs, all element sequences of any length, auto/fixed configuration", "why_tests_cant": "unbounded length, generic element type", "anchors": ["ztype/array_encode.go:Array.MarshalZserio", "ztype/array_decode.go:Array.UnmarshalZserio", "ztype/object_array_encode.go", "ztype/object_array_decode.go"]}
{"id": "C18", "title": "Packed arrays of integer-like elements round-trip; packed arrays of other builtins do not", "statement": "A packed array of integers, bit fields, varints or bools round-trips for every element sequence. A packed array of floats, strings, bytes or externs does not: MarshalZserio succeeds but, as soon as packing is chosen, every element after the first is replaced on reading by the value the element type assigns to 0.", "quantifier": "all builtin element types, all element sequences", "why_tests_cant": "whether packing is chosen depends on the whole sequence", "anchors": ["ztype/array_traits.go", "ztype/packed_array_traits.go", "ztype/array_encode.go"]}
{"id": "C19", "title": "Array writers do not report element failures", "statement": "Array.MarshalZserio and ObjectArray.MarshalZserio return nil whatever their elements return: an out-of-range element, or a failure of the underlying writer at any point after the length, leaves a truncated or misaligned stream and a nil error. Struct, choice and union writers, by contrast, return nil only when everything was written.", "quantifier": "all arrays, all points at which the underlying writer starts to fail", "why_tests_cant": "quantifies over all failure points of the underlying writer", "anchors": ["ztype/array_encode.go:Array.MarshalZserio", "ztype/object_array_encode.go", "internal/generator/templates/encode.go.tmpl"]}
{"id": "C20", "title": "Generated structs round-trip for every schema", "statement": "For every schema of structs, enums, bitmasks, choices and unions (recursive types, optional fields, conditional fields, alignment, parameters, plain and packed arrays) whose expressions refer to parameters and preceding fields only, and every value whose numbers, strings and array lengths are in the range of their types and that sets exactly the fields that are stored, MarshalZserio succeeds and UnmarshalZserio of the produced bits with the same parameters returns an equal value and stops exactly after them.", "quantifier": "all schemas, all values, all stream contexts", "why_tests_cant": "quantifies over schemas, that is over all generated programs", "anchors": ["internal/generator/templates/struct.go.tmpl", "internal/generator/templates/encode.go.tmpl", "internal/generator/templates/decode.go.tmpl"]}
{"id": "C21", "title": "Optional and conditional fields", "statement": "A present optional field costs one marker bit (1) followed by its encoding, an absent one a single 0 bit; a conditional field whose condition is false occupies no bits and is left unset by the reader.", "quantifier": "all schemas, all values, all conditions over the preceding fields and the parameters", "why_tests_cant": "conditions range over arbitrary functions of earlier fields", "anchors": ["internal/generator/templates/encode.go.tmpl", "internal/generator/templates/decode.go.tmpl"]}
{"id": "C22", "title": "Choices select the same branch on both sides", "statement": "The generated choice writer and reader select the branch from the same selector in the same way, so the selected field round-trips; only the first condition of each case label group is ever tested by the generated code, so selector values given as further conditions fall to the default branch.", "quantifier": "all choice declarations, all selector values", "why_tests_cant": "quantifies over choice declarations", "anchors": ["internal/generator/templates/choice.go.tmpl"]}
{"id": "C23", "title": "Unions store a one-based tag", "statement": "A union writes its tag as a varsize, counted from 1, followed by the selected field; the reader restores the tag and field. A tag of 0 or above the number of fields is written and read without an error and without any field.", "quantifier": "all union declarations, all tags, all values", "why_tests_cant": "quantifies over union declarations and hostile tags", "anchors": ["internal/generator/templates/union.go.tmpl"]}
{"id": "C24", "title": "Predicted size of generated types equals the bits written when no builtin arrays, extern or bytes are involved", "statement": "For every schema without extern and bytes fields and without arrays other than unpacked arrays of objects, and every valid value, ZserioBitSize(position) returns exactly the number of bits MarshalZserio writes when started at that bit position. The elements of arrays of builtin types are not counted at all, and the prediction for extern and bytes fields is always wrong.", "quantifier": "all schemas, all values, all starting positions", "why_tests_cant": "quantifies over schemas", "anchors": ["internal/generator/templates/bitsizeof.go.tmpl", "internal/generator/templates/builtin_bitsizeof.go.tmpl", "ztype/array.go:Array.ZserioBitSize"]}
{"id": "C25", "title": "Per-element sizes of builtin array elements", "statement": "The element size used for arrays equals the bits written for fixed-width integers, bit fields, bool, floats, varint16/32/64, varuint32/64 and varsize over all values; for varint, varuint, varuint16, string, bytes and extern elements it differs for exactly characterised values.", "quantifier": "all builtin array element types, all values", "why_tests_cant": "wrong byte limits matter only near specific boundaries", "anchors": ["ztype/array_traits.go"]}
{"id": "C26", "title": "Packed structs round-trip when no unions are involved", "statement": "For an array of structs written packed, every delta-packable field of every nesting level is packed in its own context and the array reads back equal, for every schema without unions, non-packable fields being stored plainly. Types that contain themselves outside of arrays (even in an optional field) can neither be written nor read packed: creating their contexts does not end.", "quantifier": "all schemas without unions, all arrays of values", "why_tests_cant": "contexts are shared across all the elements and nesting levels", "anchors": ["internal/generator/templates/packing_context_encode.go.tmpl", "internal/generator/templates/packing_context_decode.go.tmpl", "packing_context_node.go", "ztype/object_array_encode.go"]}
{"id": "C27", "title": "Unions inside packed arrays lose all their data", "statement": "A packed array of unions (or of structs containing a union field) is marshalled without error and with no bits at all for the union, so every union reads back as the undefined choice.", "quantifier": "all union declarations, all values", "why_tests_cant": "a statement about every value", "anchors": ["internal/generator/templates/union.go.tmpl:MarshalZserioPacked"]}
{"id": "C28", "title": "Enum item numbering", "statement": "An enum item without an explicit value gets the value of the preceding item plus one (0 for the first), wrapping around from 2^63-1 to -2^63; an explicit value without references is kept; hence a run of items without values counts up.", "quantifier": "all enum declarations", "why_tests_cant": "all sequences of explicit/implicit items", "anchors": ["internal/ast/enum.go"]}
{"id": "C29", "title": "Bitmask item numbering", "statement": "A bitmask value that is not given is 1 if it is the first, otherwise the smallest power of two above the value just before it (1 again if that is not positive, -2^63 if it is 2^62 or more). It shares no bit with any earlier value if the value just before is the largest so far, none is negative and it is below 2^62; otherwise bits can be shared with earlier values.", "quantifier": "all bitmask declarations", "why_tests_cant": "all sequences of explicit/implicit items", "anchors": ["internal/ast/bitmask.go"]}
{"id": "C30", "title": "Constant integer expressions are evaluated with 64-bit wrap-around, and can crash the generator", "statement": "For every constant integer expression built from literals, operators and integer constants that do not depend on themselves, the evaluator returns the 64-bit two's complement value whenever no division or modulo by zero and no negative shift count occurs in any subexpression (also one whose value is not needed); in exactly those cases the generator panics instead of reporting an error.", "quantifier": "all expressions of any depth", "why_tests_cant": "all expression trees", "anchors": ["internal/ast/expression.go"]}
{"id": "C31", "title": "Float constant expressions lose their value", "statement": "Evaluating a parenthesised, signed or conditional float expression keeps the type float but resets the value to 0; a binary operator on float literals, or on a float and an integer literal, gives the IEEE 754 double result.", "quantifier": "all float expressions", "why_tests_cant": "all expression trees", "anchors": ["internal/ast/expression.go"]}
{"id": "C32", "title": "Result types of mixed integer arithmetic", "statement": "For every pair of integer types, the type chosen for an arithmetic expression on both is signed if and only if both are, and its Go type holds every value of both operand types, except negative values when only one operand is signed. Which of two types of equal rank is chosen depends on the order of the operands.", "quantifier": "all pairs of builtin types", "why_tests_cant": "all pairs, and associativity over triples", "anchors": ["internal/ast/mixing_native_types.go"]}
{"id": "C33", "title": "Cyclic constant definitions", "statement": "Evaluating constants, enums and bitmasks always terminates. Constants that depend on themselves are rejected in every order of evaluation if one of them applies an operator to another; they are accepted without an error, but without a type or value, if they merely refer to each other (also const A = A). With conditional expressions the outcome can depend on the order.", "quantifier": "all finite sets of constant definitions", "why_tests_cant": "all reference graphs", "anchors": ["internal/ast/expression.go:Evaluate", "internal/ast/expression.go:evaluateIdentifier", "internal/model/transform.go:EvaluateConsts"]}
{"id": "C34", "title": "Enum text conversion is inverse to numbering", "statement": "For an enum with distinct item names and values, the string-to-value conversion of an item's name returns its value and String of that value returns its name; any other string gives an error. Any other value is printed as unknown(n) with its number n, which differs from every item name and from the text of every other value and cannot be converted back. Writing a value to a database and scanning it returns the value if it is one of the items, and an error otherwise.", "quantifier": "all enum declarations, all strings, all values", "why_tests_cant": "quantifies over declarations", "anchors": ["internal/generator/templates/enum.go.tmpl"]}
{"id": "C35", "title": "Generated imports cover every package reached", "statement": "The import list of a generated file contains exactly the packages reached, directly or indirectly, through import declarations of whole packages, without duplicates, and its computation terminates also when packages import each other cyclically.", "quantifier": "all import graphs", "why_tests_cant": "all finite directed graphs", "anchors": ["internal/generator/funcs.go:GoGetAllImports"]}
{"id": "C36", "title": "Unused imports are removed and used imports kept", "statement": "Removing unused imports keeps exactly the imports whose name or alias occurs in the rest of the file with a dot after it, in their order, and changes nothing else; so every used import is kept, but an unused one is kept too if its alias is the end of a longer used one. Doing it twice is the same as doing it once.", "quantifier": "all files", "why_tests_cant": "all sets of imports and uses", "anchors": ["internal/generator/strip_imports.go:StripImports"]}
{"id": "C37", "title": "Output file names", "statement": "The files generated in one process have different paths, in the directories asked for, as long as no name contains an underscore followed by a digit; with such names two files can get the same path, and one overwrites the other. The path length limit is kept for up to ten files, not in general. There is an error exactly if the limit is less than the length of a directory plus 7, also for the limit 0, documented as no limit. A second generation in the same process uses none of the paths of the first.", "quantifier": "all sets of type names, all limits", "why_tests_cant": "collisions depend on the whole set of names", "anchors": ["internal/generator/gen.go:assembleUniqueFilePath", "internal/cli/generate.go"]}
{"id": "C38", "title": "Name lookup precedence", "statement": "A symbol is resolved first among the types of the own package, then of the imported packages in their order, then in the enclosing compound type, then among the enum items of the own package, then among those of the packages reached through imports; lookup of an unknown name terminates when the import graph is acyclic and does not terminate when a cycle is reachable. The same holds for the lookup of a package by name.", "quantifier": "all package graphs, all names", "why_tests_cant": "all import graphs", "anchors": ["internal/ast/package.go:GetSymbol", "internal/ast/package.go:GetOtherType", "internal/ast/package.go:GetImportedScope"]}
{"id": "C39", "title": "Subtype chains are followed to the original type", "statement": "Resolving a chain of subtypes of at most 100 links returns the type at its end with its bit width, marked as needing a conversion if there is a link; a longer or cyclic chain is reported as an error.", "quantifier": "all sets of subtype definitions", "why_tests_cant": "all chains and cycles", "anchors": ["internal/ast/package.go:GetOriginalType"]}
{"id": "C40", "title": "Template instances", "statement": "If different template instances have different names, instantiating a struct template leaves all existing structs unchanged, adds exactly the struct with the parameters replaced, and all instances it refers to. An instance is named by concatenating the capitalised names of the template and of its arguments: the names are different if all names are words with one capital letter at the beginning; they are the same for types of the same name but of different bit width or package, and for names composed of the same capitalised parts. If a struct of that name exists it is used silently, whatever it is.", "quantifier": "all templates, all argument lists, all nestings of templates", "why_tests_cant": "all lists of names", "anchors": ["internal/model/transform.go:generateInstantiatedName", "internal/model/transform.go:instantiateType", "internal/model/transform.go:instantiateStruct", "internal/model/transform.go:instantiateField"]}
{"id": "C41", "title": "Bit field type references are normalised consistently", "statement": "A reference bit:N or int:N with 1 <= N <= 64 is given the smallest Go type that holds N bits, and the widths 8, 16, 32 and 64 are the same as the standard integer types. Every width above 255 silently becomes 255, and width 0 gives Go's uint or int.", "quantifier": "all widths", "why_tests_cant": "all widths and values", "anchors": ["internal/visitor/visitor.go:VisitTypeReference", "internal/ast/scope.go:goBits"]}
{"id": "C42", "title": "Length checks of fixed-size arrays", "statement": "A struct field declared as an array of fixed length is rejected by the generated writer when the slice has a different length, before any element is written; the reader always produces exactly that many elements or fails.", "quantifier": "all schemas, all values, all inputs", "why_tests_cant": "all lengths", "anchors": ["internal/generator/templates/encode.go.tmpl", "ztype/array_decode.go"]}
{"id": "C43", "title": "Decoders are total on hostile input", "statement": "For every schema in which no expression panics for any decoded values, array lengths are not negative, bit fields have at most 64 bits (63 in arrays) and every cycle of types reads at least one bit (an optional field, an automatic array length or a union), and for every input bit string, UnmarshalZserio terminates at a depth bounded by the input length and returns an object of the type or an error; it does not panic, as long as there is memory for its slices (see C107 for how much it asks for). Arrays with automatic length get at most 2^31-1 elements, but seven bytes are enough for a packed array of any such length. The conditions are needed: a struct that contains a fixed-length array of itself is never read, and a negative length, a 64 bit array element width or a signed width of 65 taken from the input panics.", "quantifier": "all schemas, all parameters, all input bit strings", "why_tests_cant": "all inputs, all schemas, recursive types", "anchors": ["internal/generator/templates/decode.go.tmpl", "ztype/array_decode.go", "ztype/varuint_decode.go:ReadVarsize"]}
{"id": "C44", "title": "Truncated packed arrays can be accepted", "statement": "Decoding depends only on the bits consumed and every truncated input is an error, for every schema without packed arrays and for every schema in which everything in packed arrays takes at least six bits. Otherwise it does not hold: reading a packed array ignores a failure while reading the packing descriptor, so that every input of a packed array of numbers of at most five bits that ends within the descriptor, at least one element width after its first bit, decodes to an array of zeros of the full length.", "quantifier": "all schemas, all inputs, all cut points", "why_tests_cant": "needs the exact reader state after a failed read", "anchors": ["ztype/delta_context.go:DeltaContext.Read", "ztype/delta_context.go:DeltaContext.ReadDescriptor"]}
{"id": "C45", "title": "Shared bit-field element codecs", "statement": "The per-width cache of bit-field element codecs returns, in any sequence of requests, a codec of the requested width; requests for width 64 always panic, and a request with a different Go type for an already cached width panics.", "quantifier": "all sequences of requests", "why_tests_cant": "all request histories", "anchors": ["ztype/array_traits.go:GetBitFieldArrayTraits", "ztype/array_traits.go:GetSignedBitFieldArrayTraits"]}
{"id": "C46", "title": "Bit-field array elements are not range checked", "statement": "Writing an out-of-range value as an element of a bit-field array stores its low bits without an error, whereas the same value as a plain field is rejected; in-range values are stored identically.", "quantifier": "all widths, all values", "why_tests_cant": "all widths and values", "anchors": ["ztype/array_traits.go:BitFieldArrayTraits.Write", "ztype/bits_encode.go"]}
{"id": "C47", "title": "Half-precision floats keep every representable value", "statement": "ReadFloat16 accepts every 16-bit pattern; writing the float32 it returned gives back the same 16 bits, except that a signalling NaN becomes quiet, and reading again returns the same float32. WriteFloat16 never fails and always takes 16 bits.", "quantifier": "all 2^16 patterns, all float32 values", "why_tests_cant": "all patterns and stream contexts", "anchors": ["ztype/float_encode.go:WriteFloat16", "ztype/float_decode.go:ReadFloat16"]}
{"id": "C48", "title": "Scalar writers report every failure", "statement": "A scalar writer (fixed-width, variable-length, bool, float, string, bytes, extern) or element codec that returns nil has written its whole encoding, whichever of its calls to the underlying writer failed or succeeded; so no partial encoding is ever reported as success.", "quantifier": "all scalar types, all values, all failure patterns of the underlying writer", "why_tests_cant": "quantifies over all failure patterns", "anchors": ["ztype/varuint_encode.go:writeVarUint", "ztype/varint_encode.go", "ztype/string_encode.go", "ztype/bytes_encode.go", "ztype/extern_encode.go"]}
{"id": "C49", "title": "Predicted sizes of arrays", "statement": "Array.ZserioBitSize of a non-empty array of constant-size elements is never smaller than the bits written, and equals them exactly if the length is below 2^6, in [2^7, 2^13), [2^14, 2^20) or [2^21, 2^28) (or not stored), the position is a multiple of 8 and the element size is a multiple of 8 (or there is one element). For variable-size elements whose own sizes are right only the condition on the length remains.", "quantifier": "all builtin element types, all element sequences, all positions", "why_tests_cant": "the wrong predictions depend on length ranges and positions", "anchors": ["ztype/array.go:Array.ZserioBitSize", "ztype/bit_alignment.go:alignTo", "ztype/varint_encode.go:SignedBitSize"]}
{"id": "C50", "title": "numbits at run time and at generation time", "statement": "The numbits operator evaluated in generated code returns, for v >= 2, the least number of bits that tells v values apart; evaluated in a constant expression by the generator it returns the length of the binary representation of v instead. The two differ exactly at the powers of two from 2 on.", "quantifier": "all 64-bit values", "why_tests_cant": "all values", "anchors": ["ztype/varuint_encode.go:NumBits", "internal/ast/expression.go:evaluateNumBitsOperator"]}
{"id": "C51", "title": "Values of constants do not depend on the order of evaluation", "statement": "If a name denotes the same constant in every package, each integer constant gets the value of its definition in whatever order and from whatever package the constants are evaluated. If packages have different constants of the same name, a constant that uses such a name is evaluated in the package that asks for it first, so that its value depends on the order.", "quantifier": "all sets of constant definitions, all packages, all evaluation orders", "why_tests_cant": "quantifies over all orders; the code iterates over Go maps, so tests see a random one", "anchors": ["internal/model/transform.go:EvaluateConsts", "internal/ast/expression.go:evaluateIdentifier"]}
{"id": "C52", "title": "Constants defined by enum items or bitmask values", "statement": "A constant that refers to an enum item or bitmask value without an explicit value crashes the generator, because constants are evaluated before enums and bitmasks are numbered; one that refers to a bitmask value with an explicit value gets 0.", "quantifier": "all schemas, all items", "why_tests_cant": "quantifies over schemas", "anchors": ["internal/ast/expression.go:evaluateDotExpression", "internal/model/transform.go:EvaluateConsts"]}
{"id": "C53", "title": "Arithmetic on enum items", "statement": "An arithmetic expression over an enum item and a number is evaluated with both operands replaced by 1.", "quantifier": "all enums, items, numbers and operators", "why_tests_cant": "all operands", "anchors": ["internal/ast/expression.go:evaluateArithmeticExpression", "internal/ast/expression.go:evaluateDotExpression"]}
{"id": "C54", "title": "Comparisons of bools", "statement": "Comparing two constant bool expressions evaluates to false, whatever their values and the operator.", "quantifier": "all pairs of constant bool expressions, all comparison operators", "why_tests_cant": "expressions of any depth", "anchors": ["internal/ast/expression.go:evaluateComparisonExpression"]}
{"id": "C55", "title": "Accepted type references are found by the generator", "statement": "A type reference that resolves names a package that declares the type: the own package if it declares it, otherwise an imported one. If whole packages are imported without cycles, the generator finds the type again. If only single types are imported, a reference to a type of another package that is accepted (one written with its package, see C85) is then unknown to the generator.", "quantifier": "all sets of files, all references", "why_tests_cant": "all import graphs and declarations", "anchors": ["internal/model/transform.go:resolveTypeReference", "internal/model/transform.go:ResolveImports", "internal/ast/package.go:GetImportedScope"]}
{"id": "C56", "title": "One file per package", "statement": "If several files declare the same package, only the declarations of the last one are kept.", "quantifier": "all lists of files", "why_tests_cant": "all lists of files in any order", "anchors": ["internal/model/model.go:FromFilesystem"]}
{"id": "C57", "title": "The meaning of names does not depend on map iteration order", "statement": "The symbol that a name stands for is the same in whatever order Go ranges over the declarations; for enum items this holds if no two enums of the package share an item name, and fails otherwise. If declarations of different kinds share a name, only one is seen: choice before bitmask, union, enum, struct, constant, instantiated type and subtype.", "quantifier": "all declarations, all orders", "why_tests_cant": "Go randomises the order of each range over a map", "anchors": ["internal/ast/package.go:CollectSymbols"]}
{"id": "C58", "title": "Arrays of subtypes are arrays of the original type", "statement": "The array element handler and the decision whether a packed array is delta packed are, for a subtype, those of the type at the end of its chain; for a cyclic chain the generator recurses without end.", "quantifier": "all sets of subtype definitions", "why_tests_cant": "all chains and cycles", "anchors": ["internal/ast/package.go:GoArrayTraits", "internal/ast/package.go:IsDeltaPackable"]}
{"id": "C59", "title": "Import paths and aliases", "statement": "The path by which generated code imports another generated package is the directory that package is written to if and only if the package name has no capital letters. The aliases of two imported packages differ if neither name has an underscore, and can be the same otherwise.", "quantifier": "all package names", "why_tests_cant": "all pairs of names", "anchors": ["internal/generator/gen.go:writeToFile", "internal/ast/package.go:GoPackageAlias"]}
{"id": "C60", "title": "Bitmasks over subtypes", "statement": "A bitmask declared over bit:n round trips and is written with n bits, as its size function says. A bitmask declared over a subtype of bit:n is written with no bits if it is 0, though its size function says n, and writing it fails otherwise.", "quantifier": "all widths, all values", "why_tests_cant": "all values", "anchors": ["internal/generator/templates/bitmask.go.tmpl"]}
{"id": "C61", "title": "Instantiating templates terminates", "statement": "Instantiating a template ends if templates do not use each other in a cycle; it never ends, so that the generator crashes, for a template that uses itself, even in an optional field.", "quantifier": "all templates, all arguments", "why_tests_cant": "all cycles of any length", "anchors": ["internal/model/transform.go:instantiateStruct"]}
{"id": "C62", "title": "Nested template arguments", "statement": "A template parameter within an argument of an argument of a template field is not replaced; the generated struct then has a field whose type is the parameter itself, which does not exist.", "quantifier": "all templates", "why_tests_cant": "depends on the nesting", "anchors": ["internal/model/transform.go:instantiateField"]}
{"id": "C63", "title": "Arguments of template parameters", "statement": "If several fields of a template have a template parameter as their type and pass arguments to it, all of them pass the arguments of the last one in the instance.", "quantifier": "all lists of fields, all arguments", "why_tests_cant": "all lists of fields", "anchors": ["internal/model/transform.go:instantiateField"]}
{"id": "C64", "title": "Decoded values are valid", "statement": "Every value returned by a scalar reader is in the range of its type. Every object returned by UnmarshalZserio, for every schema without packed arrays whose expressions refer to preceding fields and whose bit widths fit their Go types, and every input, is a valid value: it can be marshalled and unmarshalled again with the same result. With packed arrays it does not hold: decoded elements can be out of range, and are changed without an error when they are encoded again.", "quantifier": "all schemas, all inputs", "why_tests_cant": "all inputs, including hostile ones", "anchors": ["internal/generator/templates/decode.go.tmpl", "ztype/bits_decode.go", "ztype/varuint_decode.go", "ztype/varint_decode.go", "ztype/delta_context.go:DeltaContext.Read"]}
{"id": "C65", "title": "Items of enums and bitmasks in expressions", "statement": "Once the items of an enum have their values, Enum.item in an expression is the integer value of the item, and valueof(Enum.item) is an error. valueof(Mask.value) is the value, and isset of two values of bitmasks is true if and only if they have a bit in common.", "quantifier": "all enums and bitmasks, all values", "why_tests_cant": "all values", "anchors": ["internal/ast/expression.go:evaluateDotExpression", "internal/ast/expression.go:evaluateValueOfOperator", "internal/ast/expression.go:evaluateIsSetOperator"]}
{"id": "C66", "title": "Operators in generated expressions", "statement": "The Go text generated for an expression of a schema (of operators, fields, parameters, functions, elements, enum and bitmask items, lengthof and numbits) is read by Go in exactly one way. That reading has the operators and operands of the schema, up to parentheses and conversions, if and only if no operand has an operator that the two languages rank differently and is not put in parentheses: sums in shifts and in &; products on the right of shifts; products and shifts on the right of &; sums on the right of ^ and |, ^ on the right of |; comparisons within &, ^ and |; < <= > >= on the right of == and !=. So A + B << C is compiled as A + (B << C), and !isset(A, B) as (!A & B) != 0.", "quantifier": "all expressions, of any depth", "why_tests_cant": "all nestings of operators", "anchors": ["internal/generator/expression.go:ExpressionToGoString", "internal/generator/expression.go:twoOperatorEqualTypesToGoString", "internal/generator/expression.go:twoOperatorToGoString", "internal/generator/expression.go:isSetOperatorToGoString"]}
{"id": "C67", "title": "Expressions the generator cannot print", "statement": "Printing an expression crashes if and only if it contains, outside of constants, a sign in front of something that is not constant, or an operator one of whose types has no Go type; otherwise it gives a text. The text of an expression with a condition inside is never a Go expression, and that of an operator ~ outside of constants is the name UNSUPPORTED.", "quantifier": "all expressions, of any depth", "why_tests_cant": "all nestings of operators", "anchors": ["internal/generator/expression.go:ExpressionToGoString", "internal/generator/expression.go:twoOperatorEqualTypesToGoString", "internal/generator/expression.go:ternaryExpressionToGoString"]}
{"id": "C68", "title": "Float constants in generated code", "statement": "The Go literal generated for a finite float constant differs from it by at most half of the sixth decimal. It is not exact: positive constants below 5e-7 become 0.000000 and different constants get the same literal.", "quantifier": "all finite float64 values", "why_tests_cant": "2^64 values", "anchors": ["internal/generator/expression.go:ExpressionToGoString"]}
{"id": "C69", "title": "Integer literals", "statement": "A binary, octal, decimal or hexadecimal integer literal of a schema stands for one number. It evaluates to that number if the number is below 2^63 and the literal is not a binary one with the suffix B; every other integer literal is an error, so that the constants of type uint64 from 2^63 on cannot be written. The alignment of a field is the number of a decimal literal up to 255; every other literal is an error.", "quantifier": "all digit strings, of any length", "why_tests_cant": "all digit strings", "anchors": ["internal/ast/expression.go:Expression.Evaluate", "internal/ast/expression.go:evaluateBinaryLiteral", "internal/visitor/visitor.go:VisitFieldAlignment", "internal/parser/ZserioLexer.g4"]}
{"id": "C70", "title": "String literals", "statement": "A string literal evaluates to the text between its quotes as it is written. That is what the literal stands for if and only if it has no backslash: escapes stay in the value unchanged.", "quantifier": "all string literals", "why_tests_cant": "all texts", "anchors": ["internal/ast/expression.go:evaluateStringLiteral", "internal/parser/ZserioLexer.g4"]}
{"id": "C71", "title": "Floating point literals", "statement": "A literal of type double is read as the decimal number that is written, unless it is out of the range of float64, which is an error. No literal of type float (with the suffix f) evaluates: all of them are errors.", "quantifier": "all float literals, of any length", "why_tests_cant": "all digit strings", "anchors": ["internal/ast/expression.go:Expression.Evaluate", "internal/parser/ZserioLexer.g4"]}
{"id": "C72", "title": "One codec for a builtin type", "statement": "For every builtin type (the named types, bit:n and int:n with 1 <= n <= 64, bit<e> and int<e>) the code generated to write, read and measure a field, and to write the elements of an array, calls functions that exist, with the Go type of the field, and all of them are those of the same codec; the types packed as deltas are exactly the integer types. This does not extend to bit and int of length 0 or of no length, which name functions that do not exist, to int8<e>, which is unsigned in a field and signed in an array, or to bit:5<e>, which is written with e bits and measured as 5.", "quantifier": "all type texts of the schema language for builtin types, all values, all lengths", "why_tests_cant": "all types, lengths and values", "anchors": ["internal/generator/templates/encode.go.tmpl", "internal/generator/templates/decode.go.tmpl", "internal/generator/templates/builtin_bitsizeof.go.tmpl", "internal/generator/templates/instantiate_array_traits.go.tmpl", "internal/visitor/visitor.go:VisitTypeReference"]}
{"id": "C73", "title": "The integer under an enum or bitmask", "statement": "An enum or bitmask declared over an integer type is written and read as that type, and measured as that type; but over varint, varint64, varuint, varuint64 and varsize the code that measures an enum does not compile. A bitmask over a subtype of an n bit field reads n bits, writes nothing for the value 0 and fails to write any other value.", "quantifier": "all integer types, all values", "why_tests_cant": "all types and values", "anchors": ["internal/generator/templates/enum.go.tmpl", "internal/generator/templates/bitmask.go.tmpl", "internal/generator/templates/builtin_bitsizeof.go.tmpl"]}
{"id": "C74", "title": "Arithmetic in generated expressions compiles", "statement": "For every expression of integer constants, fields, parameters, functions, lengthof, numbits, @index, parentheses and + - * / %, the Go text compiles if and only if every constant is in the range of the Go type of its operator and no divisor is the constant 0; it then has the Go type that corresponds to its zserio type. Not included, because it does not hold: a field of a subtype in parentheses, as in (C) + A with subtype uint8 C, does not compile.", "quantifier": "all expressions, of any depth, all integer types", "why_tests_cant": "all nestings and combinations of types", "anchors": ["internal/generator/expression.go:twoOperatorEqualTypesToGoString", "internal/generator/expression.go:ExpressionToGoString", "internal/ast/expression.go:evaluateMixingIntegerTypes"]}
{"id": "C75", "title": "Comparisons and bit operators in generated expressions", "statement": "The operands of comparisons and of &, | and ^ are not converted. The Go text of such an operator on integer expressions compiles if and only if both have the same Go type or one is a constant in the range of the type of the other; so A < B with uint8 A and int16 B is accepted in a schema and does not compile. A shift compiles if its left operand is not constant and its count not negative, and has the type of the left operand; a constant on the left is converted to its own type, or to uint32 if it has none.", "quantifier": "all operand expressions, all integer types", "why_tests_cant": "all combinations of types", "anchors": ["internal/generator/expression.go:twoOperatorEqualTypesToGoString", "internal/generator/expression.go:twoOperatorToGoString"]}
{"id": "C76", "title": "Values of generated expressions", "statement": "If the Go text of an expression of integers and bools compiles, and no operator overflows and no conversion changes a value while it is evaluated, it evaluates to what the expression means with integers without bounds, and panics where that has no value. Sums, differences and products of one Go type wrap around: the value is the unbounded one modulo the size of the type.", "quantifier": "all expressions, of any depth, all values of fields, parameters, functions and elements", "why_tests_cant": "all nestings, all values", "anchors": ["internal/generator/expression.go:ExpressionToGoString"]}
{"id": "C77", "title": "Wire format of generated types", "statement": "The bits that marshalling produces for a supported value of a generated type are the ones a description of the wire format by bit strings gives, whatever the position in the stream, and unmarshalling them gives the value back; two different values never have the same bits. In the format, fields follow each other in the order of the schema, a condition that is false removes a field, an optional field starts with a marker, padding stands before the marker; numbers are in two's complement or in the shortest variable-length form; a choice is the field of the first case whose first label is the selector; a union starts with the number of its member. A packed array is a sequence of cells, one column for each integer field of the nested objects. A column starts with 0 and holds its numbers plainly, or with 1 and the greatest width of a difference, when that is shorter by the lengths the writer reckons with; columns under the default branch of a choice are always plain; nested arrays have columns of their own; padding stands after the marker.", "quantifier": "all schemas, all parameters, all supported values (valid, no unions and no non-integer arrays inside packed arrays), all stream positions", "why_tests_cant": "all schemas and values, of any size and nesting", "anchors": ["internal/generator/templates/struct.go.tmpl", "internal/generator/templates/choice.go.tmpl", "internal/generator/templates/union.go.tmpl", "internal/generator/templates/encode.go.tmpl", "internal/generator/templates/packing_context_encode.go.tmpl", "ztype/array_encode.go", "ztype/object_array_encode.go", "ztype/delta_context.go:DeltaContext"]}
{"id": "C78", "title": "Half-precision floats round to nearest, ties to even", "statement": "WriteFloat16 writes every finite float32 as its sign and the half-precision number nearest to its absolute value, the one with an even fraction when two are as near, where the infinity stands for 2^16. Infinities are written as infinities and NaNs as NaNs, with their signs. ReadFloat16 of a finite pattern returns exactly the number the pattern denotes.", "quantifier": "all 2^32 float32 values, all finite half-precision patterns", "why_tests_cant": "2^32 values, with boundaries at every tie, at the subnormals and at overflow", "anchors": ["ztype/float_encode.go:WriteFloat16", "ztype/float_decode.go:ReadFloat16"]}
{"id": "C79", "title": "Names of fields and parameters in expressions", "statement": "In the expressions of a struct or choice, the name of a field or parameter stands for that member, printed as v. and the capitalised name, and has the type that its declaration refers to, through subtypes of any package, each of them resolved in the package in which it is written. After 100 subtypes of a builtin type, or 99 of a declared one, the name is an error. Not included, because it does not hold: a constant or type of the same name, of the package itself or of one that it imports, takes precedence over the member; in struct { uint8 size; uint8 data[size]; } beside const uint8 size = 3 the array has 3 elements.", "quantifier": "all schemas with acyclic imports, all compound types, members and chains of subtypes", "why_tests_cant": "all schemas and names", "anchors": ["internal/ast/expression.go:evaluateIdentifier", "internal/ast/expression.go:evaluateSymbolType", "internal/ast/package.go:GetOriginalSymbol", "internal/ast/scope.go:GetSymbol", "internal/generator/expression.go:IdentifierToGoString"]}
{"id": "C80", "title": "Integer expressions over members, from schema to Go", "statement": "Every expression of integer literals and constants, integer members of a struct or choice, lengthof of array members, @index, numbits, parentheses and + - * / % (parentheses not around a member of a subtype) is accepted by the generator, unless it divides by a constant expression that is 0, which panics. Its Go text compiles if and only if every constant fits the Go type of its operator; if it does, and no operator overflows, it evaluates to the value of the expression in the schema, for all values of the members.", "quantifier": "all schemas with acyclic imports, all such expressions of any depth, all values of members", "why_tests_cant": "all expressions and all values", "anchors": ["internal/ast/expression.go:Expression.Evaluate", "internal/generator/expression.go:ExpressionToGoString"]}
{"id": "C81", "title": "Labels of choices", "statement": "With a parameter as the selector of a choice, generated code compares with the values of the labels: a label that is a name is the item of that name of the enum (or the value of the bitmask) which is the type of the parameter, directly or through subtypes, also if other enums have items of that name; another label is an expression. Choices all of whose labels are names of items of that enum, or expressions that evaluate, are accepted. With a parameter of a builtin type, no name is accepted as a label, not even that of a constant; the name of a value of a bitmask is not accepted if it means nothing else. Not included, because it does not hold: the labels true and false are both written as 0.", "quantifier": "all schemas with acyclic imports, all choices and labels", "why_tests_cant": "all schemas and choices", "anchors": ["internal/ast/choice.go:fullySpecifyChoiceConditions", "internal/ast/choice.go:Choice.Evaluate", "internal/ast/expression.go:evaluateDotExpression", "internal/generator/templates/choice.go.tmpl"]}
{"id": "C82", "title": "Selectors of choices", "statement": "Generated code for a choice switches on the member of the choice that is named by the last name of the selector. It is the selector if that is the name of a parameter; for every other kind of expression than a name, a member access or a call of either there is no code at all, and a field as the selector excludes names as labels. Not included, because it does not hold: with header.kind as the selector the code switches on the choice's own member kind, without an error if there is one.", "quantifier": "all schemas, all choices", "why_tests_cant": "all selectors", "anchors": ["internal/ast/choice.go:Choice.Evaluate", "internal/generator/templates/choice.go.tmpl"]}
{"id": "C83", "title": "Names in unions", "statement": "An expression in a union can use no member of the union: every name in it must be a constant or type that the package sees or an item of an enum, or the generator fails. A union with an array whose length is a parameter of the union is therefore rejected.", "quantifier": "all schemas with acyclic imports, all unions", "why_tests_cant": "all expressions in unions", "anchors": ["internal/ast/union.go:Union.Evaluate", "internal/ast/scope.go:GetCurrentCompoundType"]}
{"id": "C84", "title": "Member access in expressions", "statement": "A path of members a.b.c, in which every type is a struct or choice that the package sees under its own name, has the type that the declaration of the last member refers to, as resolved in the package of that declaration. Member access on anything but a name, a member or a call panics, such as on an element of an array or in (a).b. Not included, because it does not hold: a type of another package than the one the name alone stands for is replaced by the latter, so that a member of another type, or none, is found.", "quantifier": "all schemas with acyclic imports, all paths of any length", "why_tests_cant": "all schemas and paths", "anchors": ["internal/ast/expression.go:evaluateCompoundDotExpression", "internal/ast/expression.go:evaluateDotExpression", "internal/ast/package.go:GetCompoundType"]}
{"id": "C85", "title": "Imports of whole packages work, imports of single types do not", "statement": "The imports of a file are read in their order, and an import of a whole package is read as such. Of an import of a single type the name of the type is lost (a dot is read in its place). So a type of another package can be named without its package exactly if it is declared in a package that the file imports as a whole; a type that is imported by its own name cannot.", "quantifier": "all files without syntax errors, all sets of packages, all names", "why_tests_cant": "all import lists, package names and type names", "anchors": ["internal/visitor/visitor.go:VisitImportDeclaration", "internal/visitor/visitor.go:VisitPackageDeclaration", "internal/model/transform.go:resolveTypeReference"]}
{"id": "C86", "title": "Schema files are read as they are written", "statement": "The model of a declaration has the words of the file in their order: every name, type, flag, label, value and expression, with its operands in their places. What is dropped is exactly: offsets, extend, alignment to 0 bits, packed and implicit without an array, constraints of the fields of choices and unions, explicit before an argument, deprecated and removed before enum items, the difference between bit:8 and uint8 (and so on), the compatibility version, rules, SQL, services and pubsub. Two declarations have the same model exactly if they differ in nothing else.", "quantifier": "all parse trees of declarations, of any size and depth", "why_tests_cant": "all declarations and expressions", "anchors": ["internal/visitor/visitor.go", "internal/parser/ZserioParser.g4"]}
{"id": "C87", "title": "The last of several declarations with the same name counts", "statement": "If a file declares several structs (or choices, unions, enums, bitmasks, constants, subtypes, instantiations) with the same name, the model holds the last one, and there is no error. A name that is not declared is not in the model.", "quantifier": "all files without syntax errors, all names", "why_tests_cant": "all lists of declarations", "anchors": ["internal/visitor/visitor.go:VisitPackageDeclaration"]}
{"id": "C88", "title": "Which schema files crash the generator while they are read", "statement": "A file without syntax errors is read without an error, or the generator panics. It panics exactly if the file has no package name, or a struct field has an alignment that is not a decimal literal up to 255, or some field is an implicit array.", "quantifier": "all files without syntax errors", "why_tests_cant": "all files", "anchors": ["internal/visitor/visitor.go:VisitFieldAlignment", "internal/visitor/visitor.go:VisitFieldTypeId", "internal/visitor/visitor.go:VisitPackageDeclaration"]}
{"id": "C89", "title": "Packed size prediction is exact for flat packed objects", "statement": "For every schema and every valid object whose fields are all stored unconditionally, are not arrays, are not both optional and aligned, and whose integer values have a size the element codec knows (C25), including nested structs, choices, enums and bitmasks: with any packing context obtained from ZserioCreatePackingContext and any number of ZserioInitPackingContext calls, ZserioBitSizePacked at the writer's position returns exactly the number of bits MarshalZserioPacked appends with that context whenever it succeeds, and so do the sizes of any sequence of objects passed through one context. A union writes nothing when packed, and its size is 0. The exceptions are real: a non-empty array of structs, choices, enums or bitmasks inside a packed object makes ZserioBitSizePacked panic; the elements of an array of builtin types are never counted, or make it panic if they need a conversion; a field whose condition is false is counted; the padding of an optional aligned field is counted at another place than it is written; and asking for the size uses up the context, so that writing with the same context afterwards omits the descriptors.", "quantifier": "all schemas, objects, nesting depths, contexts, writer positions and sequences of objects", "why_tests_cant": "The prediction and the writer are separate generated code over a shared mutable context whose behaviour depends on all the objects seen so far.", "anchors": ["internal/generator/templates/packing_context_bitsize.go.tmpl", "internal/generator/templates/struct.go.tmpl: ZserioBitSizePacked", "internal/generator/templates/choice.go.tmpl: ZserioBitSizePacked", "ztype/delta_context.go: BitSizeOf", "ztype/object_array.go: ZserioBitSizePacked"]}
{"id": "C90", "title": "Reproducible output", "statement": "Generating twice from the same schema and the same state gives an error both times or neither time, and without an error the same files with the same contents, whatever the iteration order of the maps of packages and types and the order in which the sort leaves equal elements. This needs that the types of one kind in a package have different names in snake case, and the packages different names in lower case: with FooBar and Foo_bar, or the packages a and A, the contents of two files are swapped from run to run. After an error the files left behind depend on the order. What is printed to the standard output is reproducible as well.", "quantifier": "all models of packages, all iteration orders, all unstable sorts, all path limits, all earlier states", "why_tests_cant": "tests see one iteration order; that no order matters is a statement about all of them", "anchors": ["internal/generator/gen.go:Generate", "internal/generator/gen.go:newOutputs", "internal/generator/gen.go:writeToFile", "internal/generator/gen.go:assembleUniqueFilePath"]}
{"id": "C91", "title": "Every type gets its file, and nothing else is touched", "statement": "After a run without error in a new process, every package and every type without template parameters has a file of its own, in the directory of its package, whose contents are its formatted code, and all other files are unchanged, if no type name has an underscore followed by a digit. There is no error exactly if the root package is given, the path limit leaves seven characters after each directory and all code can be generated and formatted. A file is never left half written: after an error every file is complete or as before, except that one file is removed, which can be one of an earlier run.", "quantifier": "all models of packages, all orders, all limits, all earlier contents of the files, all failures of templates and of formatting", "why_tests_cant": "names interact through the shared map of used paths, and a failure can happen at any of the files", "anchors": ["internal/generator/gen.go:Generate", "internal/generator/gen.go:generatePackage", "internal/generator/gen.go:writeToFile", "internal/generator/gen.go:writeGoSource"]}
{"id": "C92", "title": "Default values", "statement": "LoadDefaultValues of a generated type sets every mandatory field of a builtin type that has an initialiser to it, at any depth of structs, choices and unions, changes no other field and no tag of a union, never fails and changes nothing when it is called again. Fields of enums and bitmasks, optional fields and arrays do not get their initialiser.", "quantifier": "all schemas without recursive mandatory fields, all initialisers, all values, all depths of nesting", "why_tests_cant": "the effect has to be checked for every path through every nesting of types, and for every field that must stay as it is", "anchors": ["internal/generator/templates/default_values.go.tmpl", "internal/generator/templates/struct.go.tmpl:LoadDefaultValues", "internal/generator/templates/choice.go.tmpl:LoadDefaultValues", "internal/generator/templates/union.go.tmpl:LoadDefaultValues", "internal/generator/templates/enum.go.tmpl:LoadDefaultValues"]}
{"id": "C93", "title": "Which type references a run resolves", "statement": "If the packages of a model have different, non-empty names and import each other, the step that resolves type references succeeds exactly if every reference it looks at means something: a builtin type, a template parameter of the type around, a type of the named package, of the own package, or of the first import that offers the name; template arguments likewise. It then gives each of them the package it means, without changing the name. In the generated Go code such a reference is the name of the type, with the package that declares it unless that is the own one. It does not look at the underlying type of enums, the default field of choices and the return types of functions of choices and unions: a reference to a declared type there is accepted, stays without a package, and is an error when the code is generated. In a package without a name no own type can be used.", "quantifier": "all models, all declarations and nested template arguments", "why_tests_cant": "all import graphs, declarations and depths of template arguments", "anchors": ["internal/model/transform.go:ResolveTypes", "internal/model/transform.go:resolveTypeReference", "internal/ast/package.go:GoType", "internal/ast/package.go:GetOriginalType"]}
{"id": "C94", "title": "Names of fields in Go and in JSON", "statement": "Every field of a generated type has the schema's name in Go, with an upper case first letter. In JSON it has the schema's name, unless it is the default field of a choice, or a field of an instance of a template whose type does not depend on the template: those have the Go name in JSON. (The templates and their instances share such fields, and the names are set once for each of them.) This holds for all orders of evaluation.", "quantifier": "all models, all sequences of template instances, all orders of the maps, fields that start with an ASCII letter", "why_tests_cant": "all sharing patterns between templates and instances, and all map orders", "anchors": ["internal/model/transform.go:CapitalizeNames", "internal/model/transform.go:instantiateField", "internal/generator/templates/field_declaration.go.tmpl"]}
{"id": "C95", "title": "Types whose names start with a lower case letter", "statement": "The Go text for a type is the name under which the type is generated, except for structs, choices and subtypes whose names start with a lower case letter: fields refer to them with an upper case letter, while their declarations keep the lower case one. Generating code that needs to know such a type fails with an unknown type, though the schema was accepted; if another type has the name with the upper case letter, the field silently gets that type.", "quantifier": "all declarations, all packages with acyclic imports, all fields", "why_tests_cant": "all combinations of names over all imported packages", "anchors": ["internal/model/transform.go:CapitalizeNames", "internal/model/package.go:GetSymbol", "internal/model/package.go:GetOriginalType", "internal/model/package.go:GoType"]}
{"id": "C96", "title": "Different Go identifiers", "statement": "The identifiers a package of generated code declares are all different, and so are the fields and methods of each generated type, if: no name of a declaration is the beginning of another one; the items of an enum differ after removing underscores and case, and none is called values, strings or string; no field of a union is called undefined; parameters, fields and functions of a type differ also up to the case of the first letter and none has the name of a generated method. For a single declaration these conditions are also necessary. Otherwise valid schemas lead to Go code that does not compile: enum Foo and struct FooValues, items A1 and A_1, an enum item VALUES, a union field undefined.", "quantifier": "all packages, all sets of names (ASCII identifiers)", "why_tests_cant": "collisions depend on all names of a package together", "anchors": ["internal/generator/templates/enum.go.tmpl", "internal/generator/templates/union.go.tmpl", "internal/generator/templates/bitmask.go.tmpl", "internal/ast/enum.go:GoName", "internal/model/transform.go:CapitalizeNames"]}
{"id": "C97", "title": "Expressions of template instances", "statement": "All instances of a template have the same expressions in Go: those of the instance that is evaluated first. So the labels of a choice template are right for every instance if they have the same values in all the types of the selector, and depend on the iteration order of a map otherwise: with two enums that number their items differently the code of one of the two is wrong, and an instance whose enum lacks a label is accepted or rejected. Casts in other expressions are those for the first instance, so that the code of another one may not compile.", "quantifier": "all models, all sets of instances, all iteration orders", "why_tests_cant": "the outcome depends on the iteration order of Go maps", "anchors": ["internal/model/transform.go:instantiateChoice", "internal/model/transform.go:instantiateField", "internal/ast/expression.go:Evaluate", "internal/ast/choice.go:fullySpecifyChoiceConditions"]}
{"id": "C98", "title": "Type arguments in template instances", "statement": "When templates are instantiated, the types of fields outside of templates and those of fields in instances that are no template parameters keep the arguments written in the schema. The fields of an instance whose type is the same template parameter all have the same arguments, whatever the template says. They are right if all fields of template parameters in the schema have the same arguments, for example none; in struct Pair<T> { T(1) first; T(2) second; } both fields are read and written with the argument 2, and a template that is used inside of another one changes the arguments there too.", "quantifier": "all sets of templates, all uses in any order, any nesting", "why_tests_cant": "the arguments that win depend on all templates a type is passed to", "anchors": ["internal/model/transform.go:instantiateField", "internal/model/transform.go:instantiateType", "internal/model/transform.go:instantiateStruct", "internal/model/transform.go:InstantiateTemplates"]}
{"id": "C99", "title": "Array objects can be reused: a history of calls never changes what is written or read; Clone shares the elements", "statement": "After any sequence of calls on any number of runtime array objects (marshalling, unmarshalling, size predictions, copying, assignments to elements and to RawArray, failing calls included), MarshalZserio and UnmarshalZserio do exactly what they do on a newly made array with the same configuration and elements, whatever packing context an earlier call left behind; marshalling and size predictions change no elements, unmarshalling and assigning a slice change those of their own object only, and as long as nothing was copied no call changes another object. Clone, documented as a deep copy, is not one: an element assigned through either object changes both, until one of them is unmarshalled into or gets a new slice. ZserioBitSizePacked panics on every non-empty array that is not configured as packed, whatever was called before, and right after MarshalZserio of a packed array it is off by exactly the descriptor plus the difference between the first element and a delta, hence always too small for elements of constant size.", "quantifier": "all element types, all sets of objects, all histories of calls, all streams", "why_tests_cant": "the packing context and the slices are state that survives between calls; tests use an object once", "anchors": ["ztype/array.go:Array.Clone", "ztype/array.go:Array.ZserioBitSizePacked", "ztype/array_encode.go", "ztype/array_decode.go"]}
{"id": "C100", "title": "A schema file is read as the words its author wrote, whatever the layout", "statement": "The text of a schema file is divided into tokens: each is the longest text that a rule of the grammar matches there, of the first such rule; the next one begins where it ends, for every text the lexer ends, and all items together are the text. So words (operators, keywords, identifiers that are no keyword, integer, floating point and string literals: exactly the texts of the language's literals) with any white space and comments before, between and after them are read as exactly these words, if no word is directly followed by a character that could continue it (two letters or digits; after a numeral also a point or a sign; the nine pairs of characters that form an operator or begin a comment). A text cannot be read as two sequences of words. Two exceptions: the comment without content /**/ does not end there, everything up to the end of the next comment is dropped with it; and a character that belongs to no token is dropped, with only a message on the console, and the rest is read as if it were not there.", "quantifier": "every text; every sequence of words of any length with any layout between them; every text of a literal, keyword or identifier", "why_tests_cant": "The interplay of 117 rules under the longest match rule on all texts: a test reads a few files, and the comment that swallows code shows only with a second comment in the file.", "anchors": ["internal/parser/ZserioLexer.g4:6-160", "internal/parser/zserio_lexer.go", "internal/model/package.go:10-31 PackageFromFile"]}
{"id": "C101", "title": "An expression in a schema means one tree, the one the precedences prescribe", "statement": "For every expression tree whose operands bind as tightly as the language requires (the ternary operator least, then || && | ^ &, equality, relations, shifts, sums, products, unary operators, and . [] () most; binary operators to the left, ?: to the right) the parser reads its tokens, followed by anything that cannot continue an expression, as exactly this tree and leaves the rest; also between the angle brackets of a bit field's length, where > may be an operator or the end. Conversely, whatever the parser returns for any text is such a tree, and its tokens followed by what is left are the tokens of the text: nothing is skipped, added or reordered. No two such trees have the same tokens, so an expression is never ambiguous, and every tree can be written with parentheses. Layout and comments between the tokens make no difference; two > are a shift even with a space between them.", "quantifier": "all expression trees, all token sequences after them, all texts", "why_tests_cant": "There are infinitely many nestings of operators; tests fix a few.", "anchors": ["internal/parser/ZserioParser.g4 expression", "internal/parser/zserio_parser.go expression", "internal/model/package.go PackageFromFile"]}
{"id": "C102", "title": "A schema file means one syntax tree, and which one", "statement": "For every file of package, imports, structs, choices, unions, enums, bitmasks, constants, subtypes and instantiations, with fields of every form (alignment, offset, implicit, optional, packed, arrays, parameters, template arguments, initialiser, condition, constraint), whose tokens have one reading, the parser returns exactly this file for its tokens, and for every text with these tokens whatever its layout and comments. Conversely, every text that is read without a syntax error is the tokens of the returned tree, in the order of the grammar: no declaration, field or clause is skipped, added or attached elsewhere. Two constructs have another reading, which wins: a length in angle brackets that is also a type is a template argument (T<n> x;), and a field of a template type with a constraint in which a name comes right after a closing bracket, as in C<D> f : a < b && c > d;, is read as the field d at the offset (C < D) > f. Only constraints of this form are concerned.", "quantifier": "all schema files, all texts", "why_tests_cant": "The grammar's files are infinitely many, and the ambiguities appear only for combinations of clauses that no test combines.", "anchors": ["internal/parser/ZserioParser.g4", "internal/parser/zserio_parser.go", "internal/model/package.go PackageFromFile"]}
{"id": "C103", "title": "Decoding into an object that was used before", "statement": "UnmarshalZserio into a new object has exactly the documented result. Into an object that was used before, for any number of decodings of any data with any parameters that succeeded or failed, UnmarshalZserio of any data succeeds or fails with the same error as into a new object and consumes the same bits, provided no expression looks at a field that is not stored; afterwards the object writes and measures the same bits as the new object would, and is the decoded value written over the old one: a stored field has its decoded value, a field whose condition is false and the other branches of a choice or union keep the value they had before, through compounds of any depth, and an optional field that is absent is nil. It is therefore not equal to the new object in general. When a decoding of a struct fails, the fields after the failing one keep their values, the ones before it do not. If an expression looks at a field that is not stored, even the decoded bits depend on what the object was used for.", "quantifier": "all schemas, all objects with any history of decodings, all data", "why_tests_cant": "What an object held before, and which fields the new data leaves alone, have to combine with one expression for the result to go wrong; tests decode into new objects.", "anchors": ["internal/generator/templates/decode.go.tmpl", "internal/generator/templates/struct.go.tmpl", "internal/generator/templates/choice.go.tmpl", "internal/generator/templates/union.go.tmpl", "ztype/object_array_decode.go"]}
{"id": "C104", "title": "Decoding and encoding again", "statement": "For a schema without packed arrays, an object that Unmarshal has decoded from any bytes is marshalled again without an error, the output decodes to the same object, and it is the shortest of all byte strings that decode to it: whatever is received is never made longer by passing it on, in any field and at any bit position. The same holds for every scalar type. The bits written are the bits read if the schema has only types of fixed width (integers, bit fields, bool, float32, float64), optional and conditional fields, fixed-length arrays, structs and choices; in general they are not: a variable-length number with more bytes than needed, a negative zero of a varint, padding bits that are set and a signalling NaN of float16 are not kept.", "quantifier": "all schemas without packed arrays whose expressions look at preceding fields, all byte strings, all starting positions", "why_tests_cant": "The inputs that matter are the ones no encoder of this library writes, and the padding of every alignment inside depends on the sizes of all fields before it.", "anchors": ["marshal.go Marshal, Unmarshal", "ztype/varint_decode.go", "ztype/varint_encode.go", "ztype/bit_alignment.go", "zstream/reader.go", "internal/generator/templates/decode.go.tmpl", "internal/generator/templates/encode.go.tmpl"]}
{"id": "C105", "title": "From schema text to wire format", "statement": "For the text of a schema file, whatever its layout and comments, the code that is generated for each declared struct, choice, union, enum and bitmask reads and writes what the declaration says: the fields in the order of the text; a keyword, bit:N, int:N, bit<e> or int<e> in the encoding of that type; a name of a subtype as the type at the end of its chain of at most 100 subtypes; a name of a declared type as that type with the arguments assigned to its parameters in order; align(N), optional, if, packed and array lengths as written; a choice by the parameter after on and the labels of its cases. A file stands for one such schema. So the values of a type are stored in the wire format (C77) that the text describes and are read back.", "quantifier": "all texts of schema files with one package, without imports, templates and package-qualified names, in which every name is declared once; all meanings of the expressions in them; all values", "why_tests_cant": "It composes the lexer, the parser, the visitor, the lookup of types and all templates: a test follows one schema through them.", "anchors": ["internal/model/package.go PackageFromFile", "internal/visitor/visitor.go", "internal/ast/package.go CollectSymbols, GetOriginalType, GetTypeParameter", "internal/generator/templates/encode.go.tmpl", "internal/generator/templates/decode.go.tmpl", "internal/generator/templates/array_init.go.tmpl", "internal/generator/templates/encode_compound_parameters.go.tmpl", "internal/generator/templates/choice.go.tmpl", "internal/generator/templates/struct.go.tmpl", "internal/generator/templates/union.go.tmpl"]}
{"id": "C106", "title": "Expressions of a schema file in the generated code", "statement": "If the code for a schema text compiles, then wherever the text gives an array length, a width, an if condition or an argument for a parameter, the code computes the value that the expression has as written, with the operators applied to mathematical integers and to truth values, parameters and earlier fields read from the object, @index the position in the array, lengthof the length and constants their literal; provided that this value and that of every part of it is held by the Go types of the members it uses. An argument arrives in the type of its parameter. So the values of each type are stored in the wire format of the text, with the lengths, conditions and arguments that the text gives, and where predicted sizes are exact (C24) the code predicts the bits it writes. Beyond the proviso it fails: the length n + 1 is 0 if the uint8 n is 255.", "quantifier": "all texts of schema files with one package, without imports, templates and functions; all expressions over integer and bool members, literals, constants whose values are literals with a minus sign or without, and @index with + - * / %, signs before what does not depend on the data, comparisons, &&, ||, !, parentheses, lengthof and numbits; all values", "why_tests_cant": "It composes lexer, parser, visitor, evaluation, printing and Go's typing of the printed text; a test evaluates a few expressions at a few values.", "anchors": ["internal/ast/expression.go Evaluate", "internal/generator/expression.go goExpression", "internal/visitor/visitor.go", "internal/ast/struct.go Evaluate", "internal/ast/choice.go Evaluate", "internal/generator/templates/array_init.go.tmpl", "internal/generator/templates/encode_compound_parameters.go.tmpl", "internal/generator/templates/encode.go.tmpl", "internal/generator/templates/decode.go.tmpl"]}
{"id": "C107", "title": "The memory that decoding asks for", "statement": "For every schema without packed arrays whose array elements take at least one bit each, an object that is decoded successfully and is nested n deep makes slices (arrays, their conversions to another element type, strings, byte and bit buffers) with at most (2n+1) elements in total for each bit of input that it consumed, and at least as many as the object keeps. On any input, decoding that fails included, the slices have at most (2n+1) elements for each bit of input plus n+1 times the greatest length, and no slice is longer than the greatest length: 2^31-1, or the greatest value of an explicit array length if that is more. The exceptions are real: five bytes that are no string make its reader ask for 2^31-1 bytes before it fails; eight bytes ask for 2^63-1 elements of an array whose explicit length is a uint64 (make panics); an array of empty structs is read from five bytes with any number of elements up to 2^31-1.", "quantifier": "all schemas without packed arrays, all parameters, all input bit strings, all nesting depths", "why_tests_cant": "The bound ranges over all schemas and all hostile inputs; a test measures the memory of a few.", "anchors": ["ztype/string_decode.go ReadString", "ztype/bytes_decode.go ReadBytes", "ztype/extern_decode.go ReadExtern", "ztype/array_decode.go UnmarshalZserio", "ztype/object_array_decode.go UnmarshalZserio", "internal/generator/templates/decode.go.tmpl"]}
{"id": "C108", "title": "Functions of a schema file", "statement": "For a text whose code compiles: the method generated for a function of a struct or a union (the name of the function with a capital letter) returns, for an integer return type, the value that the expression has with the values of the receiver's members and parameters, if the return type holds it, and otherwise its low bits; for bool, the truth value. There is no code that compiles for a function with an integer return type and a condition as its result, or with bool and a number. The value is that of integers without bounds, where Go's types of the operands hold every part of the expression (see C106). This does not extend to constants the return type does not hold, which are accepted and cut off (function uint8 f() { return 300; } returns 44), to results the operands' types do not hold (a uint32 product of two uint16 wraps at 16 bits), or to choices, whose functions have no methods.", "quantifier": "all texts of a package without imports and templates whose code compiles, all functions of structs and unions without calls, all values of the receiver", "why_tests_cant": "A test calls the methods of its own schemas with a few values; it cannot see the expressions of other schemas, nor at which values a conversion or an operator wraps around.", "anchors": ["internal/generator/templates/functions.go.tmpl", "internal/generator/templates/struct.go.tmpl", "internal/generator/templates/union.go.tmpl", "internal/generator/templates/choice.go.tmpl", "internal/generator/expression.go: goExpression", "internal/ast/struct.go: Struct.Evaluate", "internal/ast/union.go: Union.Evaluate", "internal/model/transform.go: ResolveTypes"]}
{"id": "C109", "title": "Choices on enums", "statement": "If the code for a schema text compiles: a case of a choice whose selector is a parameter of an enum type, directly or by way of subtypes, and whose label is the name of an item is the case for the number of that item, which is its literal, or one more than that of the item before, or 0 for the first item. A field or parameter of the enum that is passed for the parameter arrives with its number. So for a selector with the number of an item the choice is stored with the field of the first case with a field whose first label has that number, and for a number that no such label has with the default field, if there is one. The names of items count in the enum of the selector only.", "quantifier": "all texts of schema files with one package, without imports and templates, whose enum items have literals, with a minus sign or without, or nothing as values; all choices on a parameter; all values of the selector", "why_tests_cant": "A test sees the cases of its own enums; it cannot tell that the counting of items, the search for names and the conversion of the argument agree for every enum, whatever values its items skip and however many subtypes there are between the parameter and the enum.", "anchors": ["internal/ast/choice.go: Choice.Evaluate", "internal/ast/enum.go: Enum.Evaluate", "internal/ast/expression.go: Evaluate", "internal/generator/templates/choice.go.tmpl", "internal/generator/templates/encode_compound_parameters.go.tmpl", "internal/generator/expression.go: goExpression"]}
{"id": "C110", "title": "Conditions on enum items", "statement": "If the code for a schema text compiles: a condition that compares a field or parameter of an enum type with an item of that enum, as in 'string message if status == State.ERROR', is the comparison of their numbers, with the numbers of items as in C109. The item may be written with the enum or with a subtype of it. So with == the field is stored exactly if the member has the number of the item, and it is read exactly then, and likewise for the other relations. The member has the very type the item is written with: for a member of a subtype of the enum and an item of the enum, or the other way round, there is no such code, since Go does not compare the two types.", "quantifier": "all texts of schema files with one package, without imports and templates, whose enum items have literals, with a minus sign or without, or nothing as values; all conditions of this form, and those made of them with !, && and ||; all values of the members", "why_tests_cant": "A test looks at the items of its own enum; it cannot tell that the name of the item in the condition, the constant that is declared for it, its number and the type of the member agree for every enum and every member, nor that code for subtypes never compiles.", "anchors": ["internal/ast/expression.go: evaluateDotExpression, evaluateComparisonExpression", "internal/ast/enum.go: Enum.Evaluate, EnumItem.GoName", "internal/generator/expression.go: dotOperatorToGoString, IdentifierToGoString", "internal/generator/templates/enum.go.tmpl", "internal/generator/templates/struct.go.tmpl", "testdata/struct_optional_field.zs"]}
