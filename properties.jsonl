{"id": "C01", "title": "Unsigned integer literals decode exactly or report overflow", "statement": "For every valid JSON non-negative integer literal, decoding it into uint8/uint16/uint32/uint64 yields exactly the mathematical value when it fits the type and the overflow indication (with value 0) when it does not; no literal ever wraps around.", "quantifier": "every digit string without superfluous leading zero, of every length, for each of the four widths", "why_tests_cant": "the overflow checks rely on wrapped arithmetic; the boundary families (all literals of the critical length) are far too many to enumerate for 32/64 bits and lengths are unbounded", "anchors": ["internal/atoi/atoi.go:U8", "internal/atoi/atoi.go:U16", "internal/atoi/atoi.go:U32", "internal/atoi/atoi.go:U64"]}
{"id": "C02", "title": "int64 literals decode exactly or report overflow", "statement": "For every valid JSON integer literal (optional minus), decoding into int64 yields exactly the mathematical value when it is in [-2^63, 2^63-1], and reports overflow otherwise.", "quantifier": "every valid integer literal of every length and sign", "why_tests_cant": "same as C01; the detection is by sign of a wrapped 64-bit sum", "anchors": ["internal/atoi/atoi.go:I64"]}
{"id": "C03", "title": "int8/int16/int32 literals decode exactly or report overflow", "statement": "For every valid JSON integer literal, decoding into int8, int16 or int32 yields exactly the mathematical value when in range and reports ErrIntegerOverflow otherwise; a literal that is out of range is never silently stored as another number.", "quantifier": "every valid integer literal of every length and sign, for the three widths", "why_tests_cant": "tests only probe values next to the type limits; wrap-around acceptance happens in a different residue range", "anchors": ["internal/atoi/atoi.go:I8", "internal/atoi/atoi.go:I16", "internal/atoi/atoi.go:I32"]}
{"id": "C04", "title": "Number scanner recognises exactly the JSON number grammar", "statement": "On every non-empty input the number scanner returns 'integer' iff the longest numeric prefix is a JSON integer, 'number' iff it has a fraction and/or exponent, and an error iff the longest prefix that can be continued to a number is not itself one; on success the returned remainder is exactly the input after the longest numeric prefix, regardless of the position of the terminator relative to the 8-byte unrolled chunks.", "quantifier": "every non-empty byte string", "why_tests_cant": "unrolled loops have 3x9 exits whose correctness depends on length mod 8 and terminator position; inputs are unbounded", "anchors": ["internal/jsonnum/jsonnum.go:ReadNumber"]}
{"id": "C05", "title": "Quoted numbers are accepted only if the whole string is a number", "statement": "When a JSON string is decoded into a Number, a `,string` tagged numeric field or an integer-keyed map key, it is accepted iff its entire content is a valid JSON number of the right class; everything else (empty string, trailing bytes) gives ErrUnexpectedValue.", "quantifier": "every JSON string content and every quoted-numeric destination type", "why_tests_cant": "space of strings is infinite; the tests only try strings that fail at the first byte", "anchors": ["jscandec.go:Decode (ExpectTypeNumber, ExpectType*String, map key cases)", "internal/jsonnum/jsonnum.go:ReadNumber"]}
{"id": "C06", "title": "String unescaping is the JSON unescape function", "statement": "For every valid JSON string body, the decoded Go string is obtained by copying every unescaped byte and replacing every escape sequence by its meaning, independently of where escapes fall relative to the 8-byte lookahead batches.", "quantifier": "every valid JSON string body (any length, any mixture of escapes)", "why_tests_cant": "position of escapes relative to batches and the goto fast paths make a combinatorial space", "anchors": ["internal/unescape/unescape.go:Valid"]}
{"id": "C07", "title": "Unescaping never reads or writes out of range and never reallocates", "statement": "For every valid JSON string body, unescaping performs no out-of-range index and the output is never longer than the input (the single preallocated buffer suffices).", "quantifier": "every valid JSON string body", "why_tests_cant": "needs an invariant over all suffixes reachable in the loop", "anchors": ["internal/unescape/unescape.go:Valid"]}
{"id": "C08", "title": "\\u escapes produce valid UTF-8, and surrogate pairs denote one code point", "statement": "Each \\uXXXX escape decodes to the UTF-8 encoding of its code point; a high+low surrogate pair of escapes decodes to the single supplementary code point it denotes; lone surrogates decode to U+FFFD; so escape output is always valid UTF-8.", "quantifier": "every sequence of \\u escapes", "why_tests_cant": "2^32 surrogate combinations times contexts", "anchors": ["internal/unescape/unescape.go:Valid", "internal/unescape/unescape.go:RuneError"]}
{"id": "C09", "title": "Field lookup: first exact match, else first case-insensitive match", "statement": "For every struct field list and key, the matching field is the first whose name equals the key exactly; only if there is none, the first that matches case-insensitively (same byte length); only if there is none the key is unknown. With DisableCaseInsensitiveMatching only the exact rule applies.", "quantifier": "every field list (any number of fields, duplicates included), every key, every case-folding relation", "why_tests_cant": "4-way unrolled scans behave differently for list lengths mod 4 and match positions", "anchors": ["jscandec.go:fieldFrameIndexByName", "jscandec.go:Decode (SCAN_KEYVALS)"]}
{"id": "C10", "title": "Decode with nil destination is a no-op error", "statement": "Decode/Unmarshal with a nil destination returns (0, ErrNilDest) for every input and options and changes no memory.", "quantifier": "every input, type and option set", "why_tests_cant": "universally quantified over inputs and decoder states", "anchors": ["jscandec.go:Unmarshal", "jscandec.go:Decode"]}
{"id": "C11", "title": "Syntax errors leave the destination untouched", "statement": "If the tokenizer rejects the input, Decode returns the tokenizer's error and index and the destination and all memory reachable from it are unchanged.", "quantifier": "every input the tokenizer rejects, every type, destination content and decoder state", "why_tests_cant": "requires reasoning for all inputs and all destinations", "anchors": ["jscandec.go:Decode"]}
{"id": "C12", "title": "Error index always designates a token of the input", "statement": "Whenever Decode returns an error produced by the decoder, the returned index is the byte index of some token (value or key) of the input; whenever it succeeds the index is -1 and the error nil.", "quantifier": "every type stack, token stream, option set, memory state", "why_tests_cant": "the error sites are many and reachable in combinations depending on the whole input", "anchors": ["jscandec.go:Decode"]}
{"id": "C13", "title": "Decode always terminates", "statement": "For every type and every input, Decode performs finitely many iterations, bounded by a function of the number of tokens and frames.", "quantifier": "every type stack and every well formed token stream", "why_tests_cant": "non-termination cannot be observed by finite testing", "anchors": ["jscandec.go:Decode", "jscandec.go:ON_PTR", "jscandec.go:decodeAny"]}
{"id": "C14", "title": "Decoding scalars stores exactly the denoted value", "statement": "For every JSON scalar and scalar Go type (bool, all integer widths, floats, string, Number) Decode either stores the denoted value (type-correct) or returns an error at the scalar's index (ErrUnexpectedValue for a kind mismatch or negative into unsigned, ErrIntegerOverflow for out of range), leaving memory unchanged in the error case.", "quantifier": "every scalar token and scalar type, every previous destination value", "why_tests_cant": "infinite literals", "anchors": ["jscandec.go:Decode"]}
{"id": "C15", "title": "Structured refinement: Decode computes the recursive decoding function", "statement": "For every destination type built from scalars, any, arrays, slices, structs and maps (non-recursive, pointer-free), every JSON document and every previous destination value, Decode's flattened state machine yields exactly the result of the obvious recursive decoding function on the document tree: same value on success, same error and index on failure.", "quantifier": "every type of the class, every document (any depth/width), every previous value", "why_tests_cant": "the interpreter threads a flat frame stack with parent links; correctness needs an invariant over arbitrarily deep documents and types", "anchors": ["jscandec.go:Decode", "append_type_stack.go:appendTypeToStack"]}
{"id": "C16", "title": "Decode never writes outside the destination", "statement": "Decode writes only memory owned by the destination value (its own bytes, backing arrays within capacity, maps it references) and memory it freshly allocated; in particular no write is out of bounds of its allocation.", "quantifier": "every type, document and destination", "why_tests_cant": "memory corruption need not be visible in a test's result", "anchors": ["jscandec.go:Decode"]}
{"id": "C17", "title": "Decode never panics on valid JSON", "statement": "For every supported destination type (NewDecoder succeeded) and every valid JSON document Decode returns normally (value or error) and never panics.", "quantifier": "every type and document", "why_tests_cant": "needs all inputs", "anchors": ["jscandec.go:Decode"]}
{"id": "C18", "title": "Unknown fields are skipped without side effect", "statement": "Unless DisallowUnknownFields is set, an object member whose key matches no field is ignored: the result is the same as if the member were absent, whatever JSON value it carries and wherever the struct is nested.", "quantifier": "every unknown key and every JSON value", "why_tests_cant": "the skip loop counts nesting by hand; the values are arbitrary trees", "anchors": ["jscandec.go:Decode (SCAN_KEYVALS skip loop)"]}
{"id": "C19", "title": "DisallowUnknownFields reports the first unknown key", "statement": "With DisallowUnknownFields, if decoding reaches an object member with unknown key, Decode returns ErrUnknownField with the index of that key.", "quantifier": "every document/type", "why_tests_cant": "all inputs", "anchors": ["jscandec.go:Decode"]}
{"id": "C20", "title": "Unmentioned struct fields keep their value; duplicate keys: last wins", "statement": "Decoding an object into a struct changes only the fields whose keys occur; when a key occurs several times members are applied in order.", "quantifier": "every struct type of the class, object and previous value", "why_tests_cant": "all inputs and previous states", "anchors": ["jscandec.go:Decode (ExpectTypeStruct)"]}
{"id": "C21", "title": "Slice decoding: length equals element count, capacity reused", "statement": "Decoding an array into a slice gives a slice whose length is the number of elements, each element being the decoded element; if the previous capacity suffices no allocation occurs and the backing array is reused, otherwise a fresh one is used; `[]` gives an empty non-nil slice and null gives nil.", "quantifier": "every element type of the class, array and previous slice", "why_tests_cant": "all lengths and capacities", "anchors": ["jscandec.go:Decode (ExpectTypeSlice*)"]}
{"id": "C22", "title": "Array decoding: surplus elements ignored, missing elements handled like encoding/json", "statement": "Decoding into [N]T stores the first N elements, ignores surplus ones, and zeroes the elements for which the JSON array has no value.", "quantifier": "every N, T of the class, array", "why_tests_cant": "all lengths", "anchors": ["jscandec.go:Decode (ExpectTypeArray, ON_VAL_END)"]}
{"id": "C23", "title": "Map decoding: every member is inserted, last duplicate wins, existing entries kept", "statement": "Decoding an object into a map adds/overwrites one entry per member with the unescaped (or numerically parsed) key and keeps the other existing entries.", "quantifier": "every key/value type of the class, object and previous map", "why_tests_cant": "all inputs", "anchors": ["jscandec.go:Decode (ExpectTypeMap, ExpectTypeMapStringString)"]}
{"id": "C24", "title": "any decoding is the canonical generic JSON value", "statement": "Decoding into any produces nil/bool/float64/string/[]any/map[string]any mirroring the document tree, with unescaped strings and last duplicate key winning, for any depth.", "quantifier": "every document", "why_tests_cant": "unbounded depth; recursive function over a token cursor", "anchors": ["jscandec.go:decodeAny", "jscandec.go:Decode (ExpectTypeAny)"]}
{"id": "C25", "title": "Pointers are allocated and set", "statement": "Decoding a non-null value into *T sets the pointer to a fresh T holding the decoded value; null sets nil. This holds for pointers at the root and for pointers nested in structs, slices, arrays and maps.", "quantifier": "every pointee type, nesting and document", "why_tests_cant": "all inputs", "anchors": ["jscandec.go:Decode (ON_PTR, ON_VAL_END)"]}
{"id": "C26", "title": "Recursive struct types through pointers", "statement": "For a root struct type whose recursion goes through *S fields, decoding a document of any depth, with fields in any order, builds exactly the corresponding tree.", "quantifier": "every depth and field order", "why_tests_cant": "unbounded recursion depth", "anchors": ["jscandec.go:Decode (ExpectTypePtrRecur, ON_RECUR_OBJ_END)"]}
{"id": "C27", "title": "Recursive struct types through slices and maps", "statement": "For a struct type whose recursion goes through []S or map[K]S fields, decoding a document of any shape builds exactly the corresponding tree.", "quantifier": "every document", "why_tests_cant": "unbounded recursion depth and shapes", "anchors": ["jscandec.go:Decode (ExpectTypeSliceRecur, ExpectTypeMapRecur, ArrayEnd, ObjectEnd)"]}
{"id": "C28", "title": "Decoder reuse: results are independent of the decoder's history", "statement": "The outcome of Decode on a decoder that already performed any sequence of calls (successful or failed) equals its outcome on a fresh decoder.", "quantifier": "every sequence of previous inputs and options", "why_tests_cant": "history space is infinite", "anchors": ["jscandec.go:Decode (defer)", "jscandec.go:stackFrame"]}
{"id": "C29", "title": "No pointers to user data retained after Decode", "statement": "After Decode returns (with or without error) no frame's destination pointer refers to the caller's data.", "quantifier": "every call", "why_tests_cant": "all inputs", "anchors": ["jscandec.go:Decode (defer)"]}
{"id": "C30", "title": "Type stack is well formed", "statement": "For every Go type that NewDecoder accepts, recursive or not, the frame list it builds is a well formed tree laid out as the type says: the root has no parent, each parent precedes its children, element, key, value and field frames are where Decode expects them, with the sizes, field names, field offsets and array lengths of the type, and recursive pointers, slices and maps refer to the frame of exactly their element type.", "quantifier": "every Go type accepted by NewDecoder", "why_tests_cant": "type space is infinite", "anchors": ["append_type_stack.go:appendTypeToStack"]}
{"id": "C31", "title": "NewDecoder terminates on every Go type", "statement": "NewDecoder returns (decoder or error) for every Go type.", "quantifier": "every Go type, including recursive ones", "why_tests_cant": "non-termination cannot be tested", "anchors": ["append_type_stack.go:appendTypeToStack"]}
{"id": "C32", "title": "`string` tag option validation", "statement": "With DisallowStringTagOptOnUnsupportedTypes NewDecoder never accepts a type with a reachable field that carries the `string` option on a type other than string/bool/number kinds, and it reports ErrStringTagOptionOnUnsupportedType only if there is one (iff, when no other part of the type is an error and NewDecoder returns); without the option it never fails for that reason.", "quantifier": "every Go type", "why_tests_cant": "type space infinite", "anchors": ["append_type_stack.go:appendTypeToStack"]}
{"id": "C33", "title": "[]byte input is never aliased by decoded strings", "statement": "When S is []byte, no string stored by Decode refers to the input buffer, so later mutation of the buffer cannot change decoded values.", "quantifier": "every type, document", "why_tests_cant": "aliasing is invisible to value comparison", "anchors": ["jscandec.go:Decode", "internal/unescape/unescape.go:Valid"]}
{"id": "C34", "title": "Integer fast path for floats is exact", "statement": "For integer literals shorter than 8 (float32) resp. 16 (float64) bytes, the fast path stores the same float as a correctly rounding parser, without rounding error.", "quantifier": "every such literal", "why_tests_cant": "10^15 literals", "anchors": ["jscandec.go:Decode (ExpectTypeFloat32/64)"]}
{"id": "C35", "title": "Null semantics", "statement": "JSON null sets pointers, maps, slices and interfaces to nil, and scalars to their zero value; structs and arrays are left unchanged; it is never an error.", "quantifier": "every type of the class and previous value", "why_tests_cant": "all types and states", "anchors": ["jscandec.go:Decode (TokenTypeNull)"]}
{"id": "C36", "title": "Unmarshaler contract", "statement": "For a destination type implementing json.Unmarshaler, UnmarshalJSON is called exactly once with exactly the raw text of the value (composite or not); its error is returned with the value's index. For TextUnmarshaler the unescaped string is passed.", "quantifier": "every document position and user implementation", "why_tests_cant": "user code and inputs are unbounded", "anchors": ["jscandec.go:ON_JSON_UNMARSHALER"]}
{"id": "C37", "title": "Unmarshal agrees with a fresh Decoder", "statement": "Unmarshal(s,t) gives the same result as NewDecoder + Decode with default options.", "quantifier": "every type, input, destination content", "why_tests_cant": "all inputs", "anchors": ["jscandec.go:Unmarshal"]}
{"id": "C38", "title": "Whitespace between tokens does not matter", "statement": "Two JSON texts of the same document (same tree, same literals, different insignificant whitespace) decoded by decoders in the same state into equal destinations give the same error (at the corresponding token) or both succeed, and leave the same memory contents, provided the destination type's json.Unmarshalers do not look at whitespace themselves.", "quantifier": "every destination type, decoder history, options, destination content, document, pair of whitespace layouts", "why_tests_cant": "all layouts of all documents for all types", "anchors": ["jscandec.go:Decode", "jscandec.go:decodeAny"]}
{"id": "C39", "title": "string and []byte input give the same result", "statement": "Decoding the same text given as a string and as a []byte returns the same index and error and leaves the same memory contents (only the ownership of string data differs).", "quantifier": "every destination type, decoder history, options, destination content, input (valid or not)", "why_tests_cant": "all inputs for all types", "anchors": ["jscandec.go:Decode", "internal/unescape/unescape.go:Valid"]}
{"id": "C40", "title": "Decode options only do what they are for", "statement": "DisallowUnknownFields: a call that does not return ErrUnknownField behaves exactly as without the option, and ErrUnknownField is only returned with the option, at a member name that no field of a struct of the destination type matches. DisableCaseInsensitiveMatching changes nothing when every member name equals a field name exactly or matches none. DisableFieldNameUnescaping changes nothing when no member name contains an escape sequence.", "quantifier": "every destination type, decoder history, destination content, document, combination of the other options", "why_tests_cant": "relates two executions for all inputs", "anchors": ["jscandec.go:DecodeOptions", "jscandec.go:Decode", "jscandec.go:fieldFrameIndexByName"]}
{"id": "C41", "title": "Errors are deserved", "statement": "ErrIntegerOverflow is only returned at an integer literal that does not fit an integer type of the destination; a ParseFloat error only at a number that rounds to infinity in a float type of the destination (or a quoted number that is none); ErrUnknownField only at a member name that is no field, with DisallowUnknownFields; an unmarshaler's error only if that unmarshaler returned it when called with exactly the text of the value (resp. the unescaped string or member name) at the returned index; ErrNilDest and tokenizer errors never for a non-nil destination and valid JSON.", "quantifier": "every destination type, decoder history, options, destination content, document, unmarshaler behaviour", "why_tests_cant": "absence of spurious errors over all inputs", "anchors": ["jscandec.go:Decode"]}
{"id": "C42", "title": "Decode inverts encoding", "statement": "Decoding any JSON encoding of a Go value, with any whitespace, number notation, escapes and order of members, into a variable whose maps are empty succeeds and leaves the variable equal to that value.", "quantifier": "every destination type, value of the type, encoding of the value, decoder history, options, previous content of the variable", "why_tests_cant": "all values of all types and all their encodings", "anchors": ["jscandec.go:Decode", "jscandec.go:Unmarshal"]}
{"id": "C43", "title": "Every value can be decoded from some text", "statement": "For every Go value of a supported type (finite floats, strings of bytes, distinct map keys) there is a valid JSON text which Decode turns into that value.", "quantifier": "every destination type, value, decoder history, options, previous content of the variable", "why_tests_cant": "existence for every value of infinitely many types", "anchors": ["jscandec.go:Decode"]}
{"id": "C44", "title": "The order of members does not matter", "statement": "Two JSON texts that differ only in the order of the members of their objects (at any depth) and in white space, where no object has two members for the same field or key, decoded into variables with equal contents either both succeed and leave equal values, or both return an error.", "quantifier": "every destination type without UnmarshalJSON methods, pair of documents, decoder histories, options, previous content of the variable", "why_tests_cant": "all permutations of all documents for all types", "anchors": ["jscandec.go:Decode", "jscandec.go:fieldFrameIndexByName"]}
{"id": "C45", "title": "Decoding again changes nothing", "statement": "If Decode succeeds, then the same call again, with the same decoder and the same variable (now holding the decoded value and spare slice capacity and map entries), succeeds and leaves the variable with the same value.", "quantifier": "every destination type without user methods, document without duplicate members, decoder history, options, previous content of the variable", "why_tests_cant": "histories and previous contents of the variable are unbounded", "anchors": ["jscandec.go:Decode"]}
{"id": "C46", "title": "Decode touches only the memory of its destination", "statement": "Decode reads and writes only memory reachable from the destination pointer: memory that is not reachable from it is unchanged afterwards and does not become reachable from it, and the returned index, the error and the resulting value do not depend on where the destination lies or on what else is in memory.", "quantifier": "every frame list (type), decoder that holds no pointers, input (valid or not), options, memory and destination without dangling pointers", "why_tests_cant": "it speaks about all of the memory outside the destination and about all placements of the destination", "anchors": ["jscandec.go:Decode"]}
{"id": "C47", "title": "Concurrent calls do not disturb each other", "statement": "Goroutines that call Decode with separate decoders on destinations from which no common memory is reachable get, under every schedule, the index, error and value they would get alone; the program does not crash; each call ends after a number of its own steps that does not depend on the others; memory of nobody stays as it was.", "quantifier": "every number of goroutines, schedule, types, inputs, options, destinations", "why_tests_cant": "all schedules and all memories; the race detector sees only the executed ones", "anchors": ["jscandec.go:Decode", "jscandec.go:NewDecoder"]}
{"id": "C48", "title": "Decoded strings come from the input", "statement": "Every string in memory after a call of Decode was there before the call, or is empty, or is made from the input: with string input it refers to a part of the input (a string without escapes is not copied), with []byte input it is a copy of a part, and a part that contains a backslash is replaced by a new string holding its unescaped form.", "quantifier": "every decoder, history, input and token sequence, options, destination and memory, including calls that return an error", "why_tests_cant": "it speaks about every string in memory after every call", "anchors": ["jscandec.go:Decode", "jscandec.go:decodeAny", "internal/unescape/unescape.go:Valid"]}
{"id": "C49", "title": "Memory allocated is linear in the input", "statement": "For a given decoder a call allocates a number of memory blocks, and a number of bytes in them, bounded by a constant (depending only on the type) times the length of the input, whatever the input is and whether or not the call succeeds.", "quantifier": "every decoder, history, valid JSON text, options, destination and memory", "why_tests_cant": "a bound for all inputs; tests measure some", "anchors": ["jscandec.go:Decode"]}
{"id": "C50", "title": "Number keeps the literal and its methods return its value", "statement": "Decoding a JSON number into a Number keeps the literal byte by byte (String); Float64 returns the correctly rounded value or an error if it is out of range; Int64 returns the value iff the literal is an integer in the range of int64. The methods agree with decoding the same text directly into an int64 or float64.", "quantifier": "every JSON number, surrounding space, decoder history, options", "why_tests_cant": "all literals of any length", "anchors": ["jscandec.go:Number", "jscandec.go:Number.Int64", "jscandec.go:Number.Float64", "jscandec.go:Number.String"]}
{"id": "C51", "title": "How a value is decoded depends only on the structure of its type", "statement": "Naming a type, or using the same struct type at several places of the destination type, does not change how each place is decoded: two destination types with the same structure give the same index, error and value for the same document.", "quantifier": "every pair of types with the same structure, document, initial value, decoder histories, options", "why_tests_cant": "ranges over pairs of types and all documents; the defects need particular repetitions of a type", "anchors": ["append_type_stack.go:appendTypeToStack", "jscandec.go:NewDecoder", "jscandec.go:Decoder.Decode"]}
{"id": "C52", "title": "Struct members are the ones encoding/json knows", "statement": "The members of a struct are its exported fields except those with the tag -; a field is known by the part of its json tag before the first comma, or by its Go name if that part is empty or not a valid name; the option string applies wherever it stands in the option list; fields of embedded structs are promoted. A member of the document is decoded into the field of that name and no other field is ever set.", "quantifier": "every struct type with any tags, every document, initial value, decoder history, options", "why_tests_cant": "ranges over all tags and struct types", "anchors": ["append_type_stack.go:appendTypeToStack", "jscandec.go:Unmarshal", "jscandec.go:NewDecoder"]}
{"id": "C53", "title": "Plain types are safe for every document", "statement": "Take a destination type without pointers and struct{} below the root and without numbers in strings (Number, option string on numbers, integer map keys); if it contains structs, the calls use DisallowUnknownFields. Then every call of Decode on any valid JSON document, whatever was decoded before with whatever outcome, returns, changes no memory but the destination's, leaves a value of the type in the destination, and its index, error and value depend only on the document and the previous value of the destination (they are those of the recursive decoder; of the ideal one if no leaf is one of the wrongly parsed ones of C03, C08, C34). This also holds for any sequence of calls.", "quantifier": "all types of the class, options, decoder histories, documents, previous values, sequences of calls", "why_tests_cant": "a test tries a finite number of types, documents and histories; the decoder keeps state in its frames between calls", "anchors": ["jscandec.go: Decoder.Decode", "append_type_stack.go: appendTypeToStack"]}
{"id": "C54", "title": "Structs linked by pointers are safe for every document", "statement": "The same as C53 for a named struct type with fields of type pointer to itself besides fields of plain types, with DisallowUnknownFields, as long as the earlier calls with the decoder succeeded or were refused before decoding.", "quantifier": "all such types, documents of any depth and shape, previous trees, histories without an error inside a document", "why_tests_cant": "unbounded depth of documents and trees", "anchors": ["jscandec.go: Decoder.Decode (ExpectTypePtrRecur)"]}
{"id": "C55", "title": "Scalars: the exact result for every document", "statement": "For every scalar JSON document and every scalar destination type, Decode stores the denoted value or reports an error at the index of the scalar and leaves the destination unchanged, with exactly these exceptions: an integer literal out of the range of int8/16/32 (int) whose digits do not exceed those of the type and whose value modulo the width keeps its sign is stored modulo the width; -0 into a float is +0; each escaped half of a surrogate pair becomes U+FFFD; in a string for an integer (option string) the bytes after an integer prefix count as digits; a string for a Number is accepted if it starts with a number; a string for a float that only starts with a number is left to strconv.ParseFloat; an empty string for a number panics.", "quantifier": "all scalar documents, scalar types, previous values and decoder histories", "why_tests_cant": "infinitely many literals; the exceptions are scattered", "anchors": ["jscandec.go: Decoder.Decode", "internal/atoi", "internal/unescape", "internal/jsonnum"]}
{"id": "C56", "title": "any: the exact result for every document", "statement": "Decoding any valid JSON document into a variable of type any returns; if all numbers fit float64 the variable holds the tree of the document (last duplicate wins, each \\u escape decoded on its own), otherwise an error is returned at the index of the value and the variable is unchanged.", "quantifier": "all documents of any depth, histories, previous values", "why_tests_cant": "unbounded documents", "anchors": ["jscandec.go: decodeAny"]}
{"id": "C57", "title": "map[string]string: the exact result for every object", "statement": "Decoding an object into map[string]string: if all values are strings or null, the variable holds a map with exactly the keys of the object, each with the value of its last member (null: empty string); otherwise ErrUnexpectedValue is returned at the index of the first other value and the variable is unchanged.", "quantifier": "all objects, histories, previous values", "why_tests_cant": "unbounded number of members and duplicates", "anchors": ["jscandec.go: Decoder.Decode (ExpectTypeMapStringString)"]}
{"id": "C58", "title": "null: the exact result for every type", "statement": "Decoding null never fails by itself and gives the zero value, or leaves structs and arrays unchanged, for every type except []struct{} (unchanged) and types with UnmarshalJSON (which gets the text null).", "quantifier": "all types, histories, previous values", "why_tests_cant": "infinitely many types", "anchors": ["jscandec.go: Decoder.Decode (TokenTypeNull)"]}
{"id": "C59", "title": "Pointers outside of lists never corrupt memory", "statement": "Take a destination type built from maps, structs, pointers (to types of non-zero size) and struct{}, over types that contain no pointers (slices and arrays of anything without pointers and struct{} included). With DisallowUnknownFields, or on documents in which no array contains an object, every call of Decode, whatever the decoder was used for before, returns - or panics, if the type has numbers in strings (Number, option string on numbers, integer map keys) - and when it returns only the memory of the destination's value has changed, the destination holds a value of its type, and the decoder can be used again. The value itself may be wrong (C25). This also holds for any sequence of calls.", "quantifier": "all types of the class, options, decoder histories, documents, previous values, sequences of calls", "why_tests_cant": "after the value of a pointer the loop goes on in the wrong frame; that no document steers it to a wrong address needs an invariant over all positions of the loop", "anchors": ["jscandec.go: Decoder.Decode (ON_PTR, ON_VAL_END)", "append_type_stack.go: appendTypeToStack"]}
{"id": "C60", "title": "The answer of a call depends only on the type, the options and the document", "statement": "For the destination types of C53, C54 and C62 (plain types, linked structs and types around them, with DisallowUnknownFields where the type has structs), whether Decode accepts a document, and if not with which error and at which index, is determined by the destination type, the options and the document: neither the previous contents of the destination, nor the rest of memory, nor the documents the decoder decoded before make a difference, provided that the errors of the user's UnmarshalJSON/UnmarshalText methods do not depend on their receiver.", "quantifier": "all plain types, well-formed documents, options, pairs of decoders with different histories, pairs of variables with different contents", "why_tests_cant": "ranges over pairs of memories and histories and over all documents", "anchors": ["jscandec.go: Decoder.Decode"]}
{"id": "C61", "title": "A document is accepted if and only if it fits the type", "statement": "Decode returns without error exactly for the well-formed documents that fit the destination type: null anywhere; booleans, strings, arrays, objects for the corresponding types; numbers within the range of the numeric type; numeric map keys that are in range; no unknown members if these are disallowed; user methods that return no error.", "quantifier": "all types, documents, options, previous contents", "why_tests_cant": "both directions range over infinitely many documents and types", "anchors": ["jscandec.go: Decoder.Decode", "internal/atoi/atoi.go"]}
{"id": "C62", "title": "Types around linked structs can be relied upon for every document", "statement": "Take a destination type built from maps, structs (a struct inside of which trees may occur must have them in the field at offset 0), slices without trees and root pointers around structs that contain pointers to themselves, with DisallowUnknownFields and no numbers in strings: every call of Decode on a decoder that has not failed before returns, the destination holds a value of its type, no other memory changes, the decoder can be used again if the call succeeded, and index, error and value depend only on the document and the previous value.", "quantifier": "all such types, well-formed documents, previous values, histories without errors", "why_tests_cant": "infinitely many types, documents of any depth and histories", "anchors": ["jscandec.go: Decoder.Decode, ON_RECUR_OBJ_END, ON_VAL_END"]}
{"id": "C63", "title": "Without arrays and recursion the decoder's history never matters", "statement": "For every destination type without recursion that contains no Go array, and every text - well-formed or not, in or outside the class on which the values are right - a Decoder that has performed any sequence of calls, successful or failed, returns the same index and error and leaves the same memory, address by address, as a new Decoder; it panics, or writes out of bounds, exactly when a new one does.", "quantifier": "all types without recursion and arrays, texts, options, memories, pairs of histories", "why_tests_cant": "ranges over pairs of histories of any length and all inputs", "anchors": ["jscandec.go: Decoder.Decode (defer), stackFrame"]}
{"id": "C64", "title": "Exactly when NewDecoder returns", "statement": "NewDecoder returns for a Go type whose component types are all supported if and only if every chain of pointer, slice, map, array and field steps from any component type, not counting steps through a pointer, slice or map to a struct of positive size, is finite; it reports an unsupported type only if a component type is unsupported; a type that is accepted satisfies the condition.", "quantifier": "all Go types with finitely many named components", "why_tests_cant": "non-termination cannot be observed by a test, and the types are infinitely many", "anchors": ["append_type_stack.go: appendTypeToStack", "jscandec.go: NewDecoder, Unmarshal"]}
{"id": "C65", "title": "Unmarshal equals any Decoder of the type, also a used one", "statement": "For types without recursion and arrays, Unmarshal into a variable (not an interface variable that holds a value) returns the error and leaves the memory that Decode with default options would on a Decoder of that type, new or used any number of times.", "quantifier": "all such types, texts, memories, histories", "why_tests_cant": "ranges over histories and all inputs", "anchors": ["jscandec.go: Unmarshal, NewDecoder, Decoder.Decode"]}
{"id": "C66", "title": "Decoders of types without recursion hold no pointer after a call", "statement": "After any call of Decode, however it ends (except by a panic), a Decoder for a type without recursion holds no pointer into the memory of the caller: neither a destination nor a saved recursion record.", "quantifier": "all types without recursion, texts, options, memories, histories", "why_tests_cant": "ranges over all inputs and histories", "anchors": ["jscandec.go: Decoder.Decode (defer), recursionStack"]}
{"id": "C67", "title": "Struct members: the exact rule", "statement": "For every struct type NewDecoder accepts (recursive ones included; no slices, maps or pointers to structs with unmarshalers): its members are its fields, exported or not, in order, except those whose tag starts with - and ends there or goes on with a comma; the name is what stands before the first comma of the tag, or the Go name if that is empty; the string option applies if and only if what follows the first comma is exactly string; each member is stored at the offset of its field.", "quantifier": "all struct types with any names, tags, field types", "why_tests_cant": "ranges over all tags and struct types", "anchors": ["append_type_stack.go: appendTypeToStack"]}
{"id": "C68", "title": "An error depends only on what precedes it", "statement": "If two JSON texts agree on their first m bytes and their arrays have the same numbers of elements as far as they start before m, and Decode of the first returns an error at an index before m (the value at that index, if it is a value, ending before m), then Decode of the second with the same decoder, options and memory returns the same index and error and leaves decoder and memory in the same state. Nothing after the place of the error (further values, their types, the rest of the length) can change which error is reported, where, or what has been written.", "quantifier": "all pairs of JSON texts that begin alike, all destination types, options, decoder states and memories", "why_tests_cant": "ranges over pairs of documents with arbitrary different continuations", "anchors": ["jscandec.go: Decode, decodeAny", "jscandec.go: ON_VAL_END, ON_JSON_UNMARSHALER, SCAN_KEYVALS"]}
{"id": "C69", "title": "What a failed call leaves in the destination", "statement": "For the destination types of C53: when a call of Decode fails inside the document, the destination holds exactly what was decoded before the error. A struct: every member before the failing one has been stored in its field, in order; the field of the failing member holds what the failed decoding of its own value leaves; every other field keeps its old value. An array or slice: the elements before the failing one are decoded, the later ones are as before; a slice already has the length of the whole array in the document, except the slices of scalars the decoder specialises: they keep their length, and if they are too small for the array their contents too. A map: the entries before the failing one are there, the failing value's entry holds what is left of it. Scalars, map[string]string and values of the wrong kind are unchanged.", "quantifier": "all plain types, well-formed documents at any depth, options, previous values, decoder histories", "why_tests_cant": "ranges over every position of an error in documents of unbounded size and every previous value", "anchors": ["jscandec.go: Decoder.Decode"]}
{"id": "C70", "title": "Plain types: what a successful call stores", "statement": "For the destination types of C53 and any valid document that Decode accepts: in a struct every field holds the result of decoding the members for it one after the other, starting from its old value, fields without a member keep theirs, and with DisallowUnknownFields every key selects a field; in a map the entry of every key is the result of decoding the values given for it (the first into the old entry or a zero value), other entries are kept; a slice has as many elements as the array, each decoded from the array's element at that place, in the old backing array if its capacity suffices; in an array surplus elements of the document are ignored and elements it does not mention keep their value.", "quantifier": "all plain types, well-formed documents, previous values, decoder histories", "why_tests_cant": "ranges over documents and previous values of unbounded size", "anchors": ["jscandec.go: Decoder.Decode"]}
{"id": "C71", "title": "Types without pointers: decoding inverts encoding", "statement": "For a destination type without pointers and struct{} below the root: whatever JSON text encodes a Go value of the type (any member order, any spelling of numbers and strings except escaped surrogate pairs, any white space), decoding it, into any variable whose maps are empty and with any decoder state, succeeds and leaves that value in the variable; and every value of the type that JSON can express has such a text.", "quantifier": "all types of the class, values, encodings, options, previous contents with empty maps, decoder histories", "why_tests_cant": "ranges over all values and all their encodings", "anchors": ["jscandec.go: Decoder.Decode"]}
{"id": "C72", "title": "Plain types: order of members and repeated decoding do not matter", "statement": "For the destination types of C53: two documents that differ only in the order of members (with distinct names as the decoder sees them) are both accepted, with equal values, or both rejected; and decoding a document again into the variable it was decoded into succeeds and changes nothing (types without user-defined unmarshalers).", "quantifier": "all plain types, pairs of documents, previous values, decoder histories", "why_tests_cant": "ranges over all documents and all permutations of their members", "anchors": ["jscandec.go: Decoder.Decode"]}
{"id": "C73", "title": "Structs, arrays and pointers never corrupt memory", "statement": "For a destination type built of structs, fixed-size arrays and pointers, nested in any way, over strings, numbers, booleans, any, slices of numbers, strings and booleans, map[string]string and types with unmarshalers: whatever the JSON document (including unknown members with any contents), the options and the decoder's history, Decode returns or panics; when it returns it has written nothing but the destination, the memory its slices own and new memory, the destination holds a value of its type, and the decoder can be used again.", "quantifier": "all types of the class, JSON documents, options, previous values, sequences of calls", "why_tests_cant": "ranges over all types and documents; memory corruption need not be visible in a result", "anchors": ["jscandec.go: Decoder.Decode"]}
{"id": "C74", "title": "Recursive structs: what a call stores and what a failed call leaves", "statement": "C69 and C70 for the destination types of C62 (linked structs, and maps, structs, slices and pointers around them). Success: in a struct, at any depth of the tree, every field holds the result of decoding the members for it one after the other, starting with its old value (a pointer field that is not nil is followed, a nil one gets a new struct, null sets it to nil); a map holds for every key the result of the values given for it; a slice has as many elements as the array, decoded into the old elements where there are any. Failure: the members, entries and elements before the failing one are stored; its field, entry or element holds what is left of it; everything else keeps its old value, except that a slice already has the length of the array, and a root pointer already refers to the new value.", "quantifier": "all types of the class, well-formed documents, options (DisallowUnknownFields where C62 wants it), previous values, decoder histories without failed calls; for structs linked through slices and maps the documents of C27's class", "why_tests_cant": "ranges over types, trees of any depth and previous values; a failed call must be described at whatever depth it fails", "anchors": ["jscandec.go: Decoder.Decode"]}
{"id": "C75", "title": "Recursive structs: decoding inverts encoding, whatever the variable held", "statement": "For a destination type around structs that refer to themselves by pointers (behind a pointer, as map values, as first fields of structs): whatever JSON text encodes a Go value of the type (any member order at every level, any spelling, any white space), decoding it, with any decoder state, into a variable whose maps are empty succeeds and leaves that value in the variable; without maps in the type the variable may hold any tree before, of which nothing remains in the result. Every value of such a type that JSON can express has such a text. For the types of C62 the order of members does not matter and decoding a document again changes nothing.", "quantifier": "all types of the classes, all finite trees, all their encodings, options, previous contents, decoder histories", "why_tests_cant": "ranges over all values, all their encodings and all previous trees", "anchors": ["jscandec.go: Decoder.Decode", "append_type_stack.go: appendTypeToStack"]}
{"id": "C76", "title": "A program with many variables and decoders", "statement": "A program that keeps any number of variables (of plain types and of types around structs that refer to themselves) and any number of decoders, decodes any sequence of documents, well formed or not, into its variables, and replaces a decoder of a type with recursive structs by a new one when it refuses a well-formed document (and otherwise keeps its decoders), never panics, corrupts memory or loops; every answer and every final value is the one computed from the values of the variables alone; a call changes no other variable, variables never come to share memory, what becomes of a variable depends only on the calls that use it, and it does not matter which of several decoders of its type makes a call.", "quantifier": "all programs (sequences of calls), all numbers of variables and decoders, all documents of the classes of C15 and C26 (for the types of C53 and C62: all documents) and all syntax errors, all options, all previous contents", "why_tests_cant": "ranges over all histories of several variables and decoders at once; sharing appears only in particular interleavings", "anchors": ["jscandec.go: NewDecoder", "jscandec.go: Decoder.Decode"]}
