{"id": "C01", "title": "Unmarshal always returns", "statement": "Once the destination type has been accepted, Unmarshal(data, &v) returns after finitely many steps for every data: no input makes the decoder loop or recurse for ever.", "quantifier": "every byte string, every destination type (including recursive structs), every prior content of the destination", "why_tests_cant": "Termination is a claim about all inputs; a test can only run inputs that happen to finish.", "anchors": ["internal/decoder/context.go: skipValue, skipArray", "internal/decoder/slice.go: Decode", "internal/decoder/map.go: Decode", "internal/decoder/struct.go: Decode", "internal/decoder/array.go: Decode", "unmarshal.go: unmarshal"]}
{"id": "C02", "title": "Unmarshal never reads outside its input", "statement": "For every data, however truncated or corrupted and whatever lengths it declares (up to and beyond 2^63), Unmarshal never indexes or slices the input out of range, so it never panics with 'index out of range' or 'slice bounds out of range', and never reports success with a position outside the input.", "quantifier": "every byte string, every destination type, every prior content", "why_tests_cant": "The bound checks are spread over some forty sites and interact with int64 overflow of attacker supplied lengths; fuzzing samples.", "anchors": ["internal/decoder/context.go: hasByte, hasBytes, readString, skipClassName", "internal/decoder/ptr.go: Decode", "internal/decoder/bytes.go: decodeBinary", "internal/decoder/interface.go: decodeEmptyInterface", "unmarshal.go: validateEndBuf"]}
{"id": "C03", "title": "Unmarshal never panics (destinations without slices or interface/pointer map keys)", "statement": "If the destination type contains no slice, no map whose key type is an interface or a pointer, then for every data Unmarshal returns normally (a nil or non-nil error): no panic of any sort. This covers any, scalars, strings, arrays, structs, pointers, string/int/uint/bool keyed maps, nested arbitrarily.", "quantifier": "every byte string, every such destination type and prior content", "why_tests_cant": "Universal over inputs and over types.", "anchors": ["internal/decoder/compile.go: compile", "internal/decoder/map.go: Decode", "internal/decoder/array.go: Decode", "unmarshal.go: unmarshal"]}
{"id": "C04", "title": "Unmarshal into a slice never panics", "statement": "For every data, Unmarshal into a slice destination returns a nil or non-nil error and does not panic (the repository's own FuzzUnmarshalDoesNotPanic asserts this for []any).", "quantifier": "every byte string, slice destinations", "why_tests_cant": "The violating inputs are single points (a declared length or index near 2^63) in an astronomically large input space.", "anchors": ["internal/decoder/slice.go: Decode (MakeSlice lines 105 and 122)", "internal/decoder/context.go: readLengthInt", "internal/decoder/int.go: readInt"]}
{"id": "C05", "title": "Unmarshal into a map never panics", "statement": "For every data, Unmarshal into a map destination (any key type the decoder accepts, in particular map[any]T and map[*int]T) returns a nil or non-nil error and does not panic.", "quantifier": "every byte string, every map type", "why_tests_cant": "Only inputs whose key is itself an array, or types with pointer keys, exhibit the failure.", "anchors": ["internal/decoder/map.go: Decode (SetMapIndex)", "internal/decoder/compile.go: compileMapKey", "internal/decoder/interface.go: decodeEmptyInterface"]}
{"id": "C06", "title": "Success means the whole input was consumed", "statement": "If Unmarshal returns nil then data is exactly one serialized value: appending any non-empty bytes to an accepted input makes Unmarshal return an error.", "quantifier": "every accepted input, every non-empty suffix, every destination", "why_tests_cant": "Universal over suffixes and accepted inputs.", "anchors": ["unmarshal.go: validateEndBuf"]}
{"id": "C07", "title": "Truncated input is rejected", "statement": "If data is accepted (for some destination) then no strict prefix of data is accepted for any destination.", "quantifier": "every accepted input, every strict prefix, every pair of destinations", "why_tests_cant": "The test in the repository truncates eight literals; the claim is about all inputs.", "anchors": ["regression_test.go: TestUnmarshalTruncatedInputDoesNotPanic", "internal/decoder/context.go"]}
{"id": "C08", "title": "Unmarshal accepts exactly the serialization grammar and stores what it denotes", "statement": "Unmarshal(data,&v) succeeds with result w if and only if the type is accepted and data is the text of some serialized value p and storing p into a destination of that type holding v yields w, where 'text of' and 'storing' are given by a short separate grammar and storing relation that mention no cursors or buffers.", "quantifier": "every byte string, every destination type and prior content, both directions", "why_tests_cant": "Full functional correctness of a parser.", "anchors": ["internal/decoder/*.go: Decode methods", "unmarshal.go: Unmarshal"]}
{"id": "C09", "title": "Signed integers decode exactly", "statement": "i:<digits>; decodes into a signed integer of w bits iff the digits are an optional minus sign followed by at least one decimal digit and the number lies in [-2^(w-1), 2^(w-1)-1]; the stored number is that number; otherwise Unmarshal returns an error and the destination is unchanged. No wrap-around, whatever the number of digits or leading zeros.", "quantifier": "every byte string between 'i:' and ';', every width", "why_tests_cant": "Overflow arithmetic must be right for all digit strings.", "anchors": ["internal/decoder/int.go: parseInt64, processBytes", "internal/decoder/context.go: readIntegerBytes"]}
{"id": "C10", "title": "Unsigned integers decode exactly", "statement": "i:<digits>; decodes into an unsigned integer of w bits iff the text is at least one decimal digit and the number is at most 2^w-1; the stored number is that number; otherwise an error, destination unchanged.", "quantifier": "every byte string between 'i:' and ';', every width", "why_tests_cant": "As C09.", "anchors": ["internal/decoder/uint.go: parseUint, processBytes"]}
{"id": "C11", "title": "Strings are binary safe and length checked", "statement": "s:<n>:\"<bytes>\"; decodes into a string iff n is exactly the number of bytes between the quotes that end the value; the bytes may be anything (quotes, semicolons, NUL, invalid UTF-8); the stored string is byte for byte those bytes.", "quantifier": "every content, every declared length", "why_tests_cant": "Contents that imitate the terminator are the hard cases and are unbounded.", "anchors": ["internal/decoder/context.go: readString", "internal/decoder/string.go: decodeByte"]}
{"id": "C12", "title": "skip agrees with the strict grammar", "statement": "A value under an unknown struct key, an out-of-range array index, or handed to a custom Unmarshaler is accepted iff it is a well-formed value whose declared element counts all equal the number of elements and whose nesting stays within the limit; exactly that value's bytes are consumed.", "quantifier": "every byte string, every position and depth", "why_tests_cant": "Parser correctness.", "anchors": ["internal/decoder/context.go: skipValue, skipArray, skipString, skipInt"]}
{"id": "C13", "title": "Nesting depth limit", "statement": "No input whose arrays/objects are nested more than 10000 deep is ever accepted, into any destination; and nesting up to 10000 is never a reason for rejection when decoding into any.", "quantifier": "every input and destination type", "why_tests_cant": "Needs every path (typed, any, skipped) to count depth consistently.", "anchors": ["internal/decoder/type.go: maxDecodeNestingDepth", "internal/decoder/context.go: skipArray", "internal/decoder/map.go", "internal/decoder/struct.go", "internal/decoder/slice.go", "internal/decoder/array.go"]}
{"id": "C14", "title": "Unknown struct keys are ignored", "statement": "Inserting, anywhere in an accepted struct body, an entry whose key names no field of the destination struct and whose value is well formed does not change the outcome of Unmarshal.", "quantifier": "every struct type, every accepted body, every position, every well-formed extra value", "why_tests_cant": "Universal over bodies and positions.", "anchors": ["internal/decoder/struct.go: Decode, decodeKey"]}
{"id": "C15", "title": "Struct field order is irrelevant", "statement": "Two struct bodies that are permutations of each other, with pairwise distinct keys, decode to the same struct.", "quantifier": "every struct type, every permutation", "why_tests_cant": "Factorially many orders.", "anchors": ["internal/decoder/struct.go: Decode"]}
{"id": "C16", "title": "Fields not named in the input keep their value; ignored fields are never written", "statement": "After a successful Unmarshal into a struct, every field whose key does not occur in the input, every unexported field and every field tagged php:\"-\" holds the value it held before.", "quantifier": "every struct type, every input, every prior value", "why_tests_cant": "Frame condition: says what must not change for all inputs.", "anchors": ["internal/decoder/struct.go", "internal/decoder/compile.go: compileStruct", "internal/runtime/struct_field.go: IsIgnoredStructField"]}
{"id": "C17", "title": "Null", "statement": "Decoding N; sets pointers, slices, maps and interfaces to nil and leaves numbers, booleans, strings, arrays and structs as they were.", "quantifier": "every destination type and prior value", "why_tests_cant": "Universal over types and prior values.", "anchors": ["internal/decoder/*.go: validateNull call sites"]}
{"id": "C18", "title": "Decoding into any", "statement": "Decoding into any yields nil, bool, int64, float64, string, map[any]any (for arrays; keys only int64 or string) or map[string]any (for objects), recursively, and nothing else; the previous content of the any is irrelevant.", "quantifier": "every accepted input, every prior content", "why_tests_cant": "Universal over inputs; a closure property of a recursive decoder.", "anchors": ["internal/decoder/interface.go: decodeEmptyInterface, mapKeyDecoder"]}
{"id": "C19", "title": "Slices from arrays with gaps, repeats and any order", "statement": "Decoding an array with integer keys into a slice of scalars yields a slice whose length is the greatest key plus one, whose element i is the value stored under the last occurrence of key i, and the zero value where there is no key i.", "quantifier": "every list of entries", "why_tests_cant": "Universal over key sequences.", "anchors": ["internal/decoder/slice.go: Decode"]}
{"id": "C20", "title": "Fixed arrays", "statement": "Decoding an array with integer keys into [n]T keeps length n, stores element i from the last entry with key i, zero where absent, and ignores entries with key >= n (their values must still be well formed).", "quantifier": "every list of entries, every n", "why_tests_cant": "Universal over key sequences and n.", "anchors": ["internal/decoder/array.go: Decode"]}
{"id": "C21", "title": "Declared element counts are enforced", "statement": "Unmarshal rejects an array or object whose declared element count differs from the number of elements present.", "quantifier": "every input and destination", "why_tests_cant": "Holds for skipped values but not for typed ones; only a for-all statement separates the two.", "anchors": ["internal/decoder/map.go", "internal/decoder/slice.go", "internal/decoder/struct.go", "internal/decoder/array.go", "internal/decoder/context.go: skipArray"]}
{"id": "C22", "title": "Object class names are irrelevant", "statement": "Decoding O:n:\"Class\":k:{body} into a struct or map gives exactly the result of decoding a:k:{body}, for every class name of n bytes.", "quantifier": "every class name, every body, every struct/map type", "why_tests_cant": "Universal over names and bodies.", "anchors": ["internal/decoder/context.go: skipClassName", "internal/decoder/struct.go", "internal/decoder/map.go"]}
{"id": "C23", "title": "Custom Unmarshalers receive exactly the raw value", "statement": "A destination type implementing Unmarshaler is called once with exactly the bytes of its serialized value (never unquoted or altered), except that N; sets it to its zero value without a call; if the method errors, Unmarshal errors and the destination is unchanged.", "quantifier": "every input, every Unmarshaler behaviour", "why_tests_cant": "The unquoting code behind it must be shown unreachable for all inputs.", "anchors": ["internal/decoder/unmarshal_php.go: Decode, unquoteBytes", "internal/decoder/interface.go: decodePHPUnmarshaler"]}
{"id": "C24", "title": "Bad targets are reported, not panicked on", "statement": "Unmarshal with a nil target, a non-pointer target, or a nil pointer returns an error, whatever the data.", "quantifier": "every data, every invalid target", "why_tests_cant": "The nil-target check is dead code behind a panicking call.", "anchors": ["unmarshal.go: unmarshal, validateValue"]}
{"id": "C25", "title": "Decoder type checking", "statement": "Unmarshal into a type containing (at any reachable depth) a pointer to a pointer, an embedded struct or pointer-to-struct field, two fields with one key, or a string-tagged field that is neither bool, int, uint, float nor an untagged-as-string kind, returns an error before touching the destination, for every data.", "quantifier": "every type, every data", "why_tests_cant": "Universal over types.", "anchors": ["internal/decoder/compile.go", "internal/decoder/ptr.go: newPtrDecoder", "internal/decoder/wrapped_string.go: newWrappedStringDecoder"]}
{"id": "C26", "title": "Compiling a destination type terminates", "statement": "For every Go type, Unmarshal's compilation of the destination type terminates.", "quantifier": "every type, in particular recursive ones", "why_tests_cant": "Recursive types without a struct on the cycle are the exception.", "anchors": ["internal/decoder/compile.go: compile, compileSlice, compileMap, compileStruct"]}
{"id": "C27", "title": "A failed decode of a scalar or any leaves the destination alone", "statement": "If Unmarshal returns an error and the destination is a bool, number, string, []byte from a string, or any, the destination is unchanged.", "quantifier": "every failing input, every prior value", "why_tests_cant": "Frame condition over all failing inputs.", "anchors": ["internal/decoder/int.go", "internal/decoder/uint.go", "internal/decoder/float.go", "internal/decoder/bool.go", "internal/decoder/string.go", "internal/decoder/interface.go"]}
{"id": "C28", "title": "Marshal emits exactly PHP's serialization of the value", "statement": "Whatever Marshal returns is PHP serialize() of the PHP value its argument represents, and Marshal succeeds for every value of supported type that unfolds finitely with at most 1000 containers nested in each other (or, at any depth, with no slice of concrete type inside an interface and every container different from those it lies in): booleans, integers, floats, strings map to scalars, slices/arrays/maps/structs to arrays whose declared count is the number of entries, nil to null.", "quantifier": "every value of every supported type in every heap, every map iteration order", "why_tests_cant": "Universal over values; refinement of a cursor/reflection based encoder to a printer.", "anchors": ["internal/encoder/*.go", "marshal.go"]}
{"id": "C29", "title": "Length prefixes are right", "statement": "The length printed before a string-tagged integer equals the number of bytes of its decimal form, for every int64 (including the minimum) and every uint64.", "quantifier": "all int64, all uint64", "why_tests_cant": "2^64 values each.", "anchors": ["internal/encoder/int_as_string.go: iterativeDigitsCount", "internal/encoder/uint_at_string.go: uintDigitsCount"]}
{"id": "C30", "title": "Distinct PHP values have distinct encodings", "statement": "Marshal output determines the PHP value: if two values have the same output they represent the same PHP value, and no output is a strict prefix of another.", "quantifier": "every pair of values", "why_tests_cant": "Injectivity over an infinite domain.", "anchors": ["internal/encoder/*.go"]}
{"id": "C31", "title": "Struct encoding: which fields, in which order", "statement": "Marshal of a struct emits, in declaration order, exactly the exported fields not tagged '-' and not omitted by omitempty-and-zero; a nil pointer field is null.", "quantifier": "every struct type and value", "why_tests_cant": "Universal over types and values.", "anchors": ["internal/encoder/struct.go: compileStructFields, compileStructFieldsEncoders"]}
{"id": "C32", "title": "Marshal of a recursive value returns an error", "statement": "Marshal terminates on every value, including cyclic ones, and returns an error for cyclic ones.", "quantifier": "every heap, every value, every type", "why_tests_cant": "Termination on all cyclic graphs; only some cycles go through the tracked containers.", "anchors": ["internal/encoder/ptr.go: checkStructRecursiveEncoder, checkRecursiveEncoder", "internal/encoder/interface.go: reflectInterfaceValue, reflectRecursiveValue", "internal/encoder/struct_reflect.go"]}
{"id": "C33", "title": "Marshal never rejects a finite value as recursive", "statement": "A value with finite unfolding of supported type is never rejected with the recursion error, however deep.", "quantifier": "every finite value", "why_tests_cant": "Counterexamples need aliasing slices or more than 1000 levels.", "anchors": ["internal/encoder/interface.go: reflectRecursiveValue", "internal/encoder/slice_reflect.go", "internal/encoder/ptr.go"]}
{"id": "C34", "title": "Marshal calls do not influence later calls", "statement": "Whatever sequence of Marshal calls (succeeding or failing) has gone before on a pooled context, a Marshal call returns what it returns on a fresh context.", "quantifier": "every history of calls", "why_tests_cant": "Quantifies over histories.", "anchors": ["internal/encoder/context.go", "internal/encoder/marshal.go", "internal/encoder/ptr.go", "internal/encoder/interface.go"]}
{"id": "C35", "title": "Typed round trip", "statement": "Unmarshal(Marshal(v)) into a zero value of v's type gives back v, for types built from booleans, integers, floats, strings, bytes, slices, arrays, maps, pointers and structs that both sides support, with exactly these differences: an empty non-nil slice comes back nil, a nil []byte comes back empty, a pointer to a nil slice or map comes back nil, fields that are not written (unexported, tagged '-', omitted by omitempty) come back zero, and map order is free. Values nest containers less than 10000 deep, and their floats are ones strconv formats and parses back (see C42).", "quantifier": "every value of every such type", "why_tests_cant": "Round trip over an infinite domain.", "anchors": ["marshal.go", "unmarshal.go"]}
{"id": "C36", "title": "any round trip", "statement": "Unmarshal(Marshal(v)) into any gives the any-representation of v's PHP value, and re-marshalling it gives back a serialization of the same PHP value.", "quantifier": "every value", "why_tests_cant": "As C35.", "anchors": ["marshal.go", "unmarshal.go", "internal/decoder/interface.go"]}
{"id": "C37", "title": "Map iteration order does not matter", "statement": "Whatever order the runtime iterates a map in, the output decodes to the same map.", "quantifier": "every map, every permutation", "why_tests_cant": "Factorially many orders chosen by the runtime.", "anchors": ["internal/encoder/map.go", "internal/encoder/map_reflect.go", "internal/decoder/map.go"]}
{"id": "C38", "title": "Custom Marshalers are honoured", "statement": "Wherever a value whose type implements Marshaler occurs, its MarshalPHP bytes appear verbatim in the output, and its error is Marshal's error.", "quantifier": "every type, every position (top level, element, field, pointer field, inside an interface)", "why_tests_cant": "Positions are unboundedly many; some dispatch paths bypass the check.", "anchors": ["internal/encoder/marshal_php.go", "internal/encoder/interface.go: reflectInterfaceValue", "internal/encoder/struct.go: compileStructFieldsEncoders"]}
{"id": "C39", "title": "Marshal does not panic on nil", "statement": "Marshal of a nil pointer or nil interface, wherever it occurs, encodes null and does not panic.", "quantifier": "every type, every position", "why_tests_cant": "Only particular combinations of Marshaler and nil fail.", "anchors": ["internal/encoder/marshal_php.go: compileMarshaler", "internal/encoder/ptr.go"]}
{"id": "C40", "title": "Compiling a source type terminates", "statement": "For every Go type, Marshal's compilation of the type terminates.", "quantifier": "every type, in particular recursive ones", "why_tests_cant": "Only recursion through a fixed-size array fails.", "anchors": ["internal/encoder/array.go: compileArray", "internal/encoder/compile.go", "internal/encoder/compile_cache.go"]}
{"id": "C41", "title": "String-tagged fields round trip", "statement": "A field tagged ',string' that Marshal can encode is decoded back by Unmarshal to the same value.", "quantifier": "every field type and value", "why_tests_cant": "Universal over types and values; fails for the string kind only.", "anchors": ["internal/encoder/compile.go: compileAsString", "internal/decoder/wrapped_string.go"]}
{"id": "C42", "title": "Special floats", "statement": "NaN and both infinities are encoded as NAN, INF, -INF and decode back; every finite float is encoded so that decoding gives back the same float (including -0 and subnormals).", "quantifier": "every float64 and float32", "why_tests_cant": "2^64 values.", "anchors": ["internal/encoder/float.go", "internal/decoder/float.go"]}
{"id": "C43", "title": "The type caches are transparent under every schedule", "statement": "For every interleaving of concurrent Marshal (or Unmarshal) calls, the encoder (decoder) a call uses is the one compiling its type yields; a published cache map is never mutated; lost updates only cost recompilation.", "quantifier": "every number of goroutines, every schedule", "why_tests_cant": "Schedules cannot be enumerated by tests.", "anchors": ["internal/encoder/compile_cache.go", "internal/decoder/compile.go: CompileToGetDecoder, storeDecoder"]}
{"id": "C44", "title": "Pooled buffers never leak between calls", "statement": "For every interleaving of concurrent and nested Marshal calls sharing the buffer pools, the bytes returned by a call are that call's bytes and never change afterwards.", "quantifier": "every number of goroutines, every schedule", "why_tests_cant": "Schedules and pool behaviour cannot be enumerated by tests.", "anchors": ["internal/encoder/buffer.go", "internal/encoder/context.go", "internal/encoder/marshal.go", "internal/encoder/struct.go"]}
{"id": "C45", "title": "Field naming agrees between Marshal and Unmarshal", "statement": "For every field and tag, Marshal writes the field under a key iff Unmarshal reads the field from that key.", "quantifier": "every field name and tag string", "why_tests_cant": "Universal over tag strings.", "anchors": ["internal/runtime/struct_field.go", "internal/encoder/struct.go", "internal/decoder/compile.go: compileStruct"]}
{"id": "C46", "title": "Every encodable type is encodable inside an interface", "statement": "If Marshal(v) succeeds then Marshal of an any-typed field or element holding v succeeds with the same encoding of v.", "quantifier": "every type and value", "why_tests_cant": "Two dispatchers must agree on all kinds.", "anchors": ["internal/encoder/interface.go: reflectInterfaceValue", "internal/encoder/compile.go: compile"]}
{"id": "C47", "title": "Decoded byte slices are independent", "statement": "Two []byte values produced by one Unmarshal share no memory a caller can reach: appending to or writing one never changes the other; nor does changing data after the call.", "quantifier": "every input, every sequence of appends and writes", "why_tests_cant": "Aliasing shows only when spare capacity is used.", "anchors": ["internal/decoder/bytes.go: Decode", "internal/decoder/context.go: readString", "unmarshal.go: unmarshal"]}
{"id": "C48", "title": "Unsigned values survive any", "statement": "Every value Marshal accepts can be decoded into any.", "quantifier": "every value", "why_tests_cant": "Only uint64 above 2^63-1 fails.", "anchors": ["internal/encoder/uint.go", "internal/decoder/interface.go", "internal/decoder/int.go: parseInt64"]}
{"id": "C49", "title": "Destinations without sharing are decoded as values", "statement": "If every pointer, map and slice reachable from the destination has an allocation of its own, Unmarshal leaves in it exactly the value determined by data and the value it held before, again without sharing, and changes no other memory.", "quantifier": "every input, type, memory and destination without sharing", "why_tests_cant": "Universal over heaps; reuse of pointees and maps depends on the previous contents.", "anchors": ["unmarshal.go", "internal/decoder/ptr.go", "internal/decoder/map.go", "internal/decoder/slice.go", "internal/decoder/struct.go", "internal/decoder/array.go"]}
{"id": "C50", "title": "Unmarshal writes only to its destination", "statement": "Unmarshal(data, p) changes only variables reachable from p through fields, array elements, pointers and interfaces, and maps held in them, whatever is shared; elements of slices the destination held before the call are never written.", "quantifier": "every input, type and memory, with sharing and cycles", "why_tests_cant": "Universal over heaps.", "anchors": ["unmarshal.go", "internal/decoder/slice.go", "internal/decoder/ptr.go", "internal/decoder/map.go", "internal/decoder/interface.go"]}
{"id": "C51", "title": "Unmarshal ends on every destination", "statement": "Unmarshal into any memory, even a structure that contains itself, comes to an end without reading outside data, and returns nil only if data is exactly one serialized value.", "quantifier": "every input, type and memory, with sharing and cycles", "why_tests_cant": "Cyclic destinations cannot be enumerated.", "anchors": ["unmarshal.go", "internal/decoder/ptr.go", "internal/decoder/struct.go"]}
{"id": "C52", "title": "Concurrent and nested Unmarshal calls do not affect each other", "statement": "Each call of Unmarshal has the outcome it would have alone, whatever other calls run at the same time, inside its UnmarshalPHP methods or before it; the memory behind decoded byte slices is never changed by another call; no call waits for another; reused contexts keep no data of earlier calls.", "quantifier": "every number of goroutines, sequence of calls, nesting and schedule", "why_tests_cant": "Universal over schedules; reuse through sync.Pool is not reproducible.", "anchors": ["unmarshal.go: Unmarshal", "internal/decoder/context.go: TakeRuntimeContext, ReleaseRuntimeContext"]}
{"id": "C53", "title": "Memory is proportional to the input", "statement": "The room for map entries and slice elements that Unmarshal asks for, accepted input or not, is bounded by a constant times len(data); there are at most len(data) requests.", "quantifier": "every input, type, destination and outcome", "why_tests_cant": "A resource bound over all inputs; a test measures single inputs.", "anchors": ["internal/decoder/map.go: Decode", "internal/decoder/slice.go: Decode", "internal/decoder/interface.go", "internal/decoder/context.go: readLength"]}
{"id": "C54", "title": "Lists are decoded in linear memory", "statement": "Decoding an honest list of m elements into a slice asks for room for a number of elements proportional to m.", "quantifier": "every list, slice type and destination", "why_tests_cant": "An asymptotic claim: no finite set of sizes settles it.", "anchors": ["internal/decoder/slice.go: Decode"]}
{"id": "C55", "title": "Struct tags", "statement": "A field's key is the part of its php tag before the first comma if that is a non-empty valid name (UTF-8 letters, digits and the listed punctuation), otherwise its Go name. Unmarshal leaves alone fields that are unexported or tagged '-'. Marshal writes exported fields in order under their keys, except those named '-' and zero values with the option omitempty; options are whole words after the first comma.", "quantifier": "every struct type, tag and value", "why_tests_cant": "Tags are arbitrary strings, including invalid UTF-8; tests try a few.", "anchors": ["internal/runtime/struct_field.go: IsIgnoredStructField, isValidTag, StructTagFromField", "internal/decoder/compile.go: compileStruct", "internal/encoder/compile.go: compileStruct"]}
{"id": "C56", "title": "Decoding twice is decoding once", "statement": "If Unmarshal(data, &x) returns nil, calling it again returns nil and leaves x unchanged, for every x whose type contains no interface with methods and whose maps have string, boolean or integer keys; whatever x held before, and however often the data names a field or key.", "quantifier": "every input, every such type and every value of it", "why_tests_cant": "Universal over inputs and previous contents; merging into maps, pointers and structs depends on both.", "anchors": ["unmarshal.go: Unmarshal", "internal/decoder/map.go", "internal/decoder/ptr.go", "internal/decoder/struct.go", "internal/decoder/array.go", "internal/decoder/slice.go"]}
{"id": "C57", "title": "Acceptance does not depend on what the destination holds", "statement": "For a type containing no interface with methods, Unmarshal(data, &x) returns nil for one value of x iff it does for every value of x.", "quantifier": "every input, type, and pair of destination values", "why_tests_cant": "Universal over pairs of previous contents.", "anchors": ["unmarshal.go: Unmarshal", "internal/decoder/ptr.go", "internal/decoder/map.go", "internal/decoder/struct.go"]}
{"id": "C58", "title": "Pointers are transparent", "statement": "Unmarshal into a pointer variable has the same outcome as into what it points to (a new zero value if it is nil), except that null makes the pointer nil.", "quantifier": "every input, pointee type and value", "why_tests_cant": "Universal over types and inputs.", "anchors": ["internal/decoder/ptr.go: Decode", "internal/decoder/compile.go: compilePtr"]}
{"id": "C59", "title": "Error offsets point into the input", "statement": "When Unmarshal returns a SyntaxError or UnmarshalTypeError, its Offset is between 0 and len(data), also for errors inside nested values; for bytes after a complete value it is the number of bytes of that value plus one.", "quantifier": "every input, destination type and value", "why_tests_cant": "Universal over malformed inputs; every check in every decoder computes its own offset.", "anchors": ["internal/errors/error.go: SyntaxError, UnmarshalTypeError", "internal/decoder/context.go", "unmarshal.go: validateEndBuf"]}
{"id": "C60", "title": "Methods may use their argument as they like", "statement": "What an UnmarshalPHP method does to the bytes it is given (overwrite them, append to them) does not influence what the rest of the input is decoded to, nor whether it is accepted.", "quantifier": "every input, destination, and every set of methods", "why_tests_cant": "Universal over what user code does with the slice; the effect depends on what happens to follow in the input.", "anchors": ["unmarshal.go: unmarshal", "internal/decoder/unmarshal_php.go: Decode", "internal/decoder/interface.go: decodePHPUnmarshaler"]}
{"id": "C61", "title": "Errors are compositional", "statement": "When Unmarshal rejects a text for a type, it rejects every longer input in which that text stands where a value of that type is expected, with the same error, its offset moved by the number of bytes before the text; the destination of that value is left as rejecting the text alone leaves it, everything before it has been stored, and nothing after it.", "quantifier": "every type, every place inside it at any depth, every rejected text, every beginning of an input that leads to that place, every old value", "why_tests_cant": "Universal over all contexts of an error; tests fix a few places.", "anchors": ["unmarshal.go: Unmarshal", "internal/decoder/struct.go: Decode", "internal/decoder/map.go: Decode", "internal/decoder/slice.go: Decode", "internal/decoder/array.go: Decode", "internal/decoder/ptr.go: Decode", "internal/decoder/interface.go: decodeEmptyInterface"]}
{"id": "C62", "title": "Type errors say what was found where", "statement": "When data does not fit the type of the place it is to be stored in, Unmarshal returns an UnmarshalTypeError whose Offset, Value, Type, Struct and Field are the place in the input, the data found, the type of the place, and the innermost struct type around the place and its field; everything before it has been stored. No UnmarshalTypeError is about a place that the destination cannot have.", "quantifier": "every destination type, every place inside it at any depth, every beginning of an input that leads to that place, every kind of data that does not fit there", "why_tests_cant": "Universal over places and data; the names are fixed per decoder when a type is first compiled, so they depend on the order in which recursive types are met.", "anchors": ["internal/errors/error.go: UnmarshalTypeError", "internal/decoder/int.go: typeError", "internal/decoder/uint.go: typeError", "internal/decoder/string.go", "internal/decoder/compile.go: compileStruct", "internal/decoder/interface.go", "internal/decoder/unmarshal_php.go: annotateError"]}
{"id": "C63", "title": "The inputs that make Unmarshal panic", "statement": "Unmarshal panics exactly when, after a beginning of the input that is accepted, a slice destination meets a declared count or an index too large to allocate, a map with pointer keys meets a key that is not null, or a map meets a key that Go cannot hash; what was stored before stays, and every other input makes Unmarshal return.", "quantifier": "every input, every destination type and value, every place inside it at any depth", "why_tests_cant": "An equivalence over all inputs and all types; the panicking place may lie at any depth after any accepted beginning.", "anchors": ["internal/decoder/slice.go: sliceDecoder.Decode", "internal/decoder/map.go: mapDecoder.Decode", "internal/decoder/ptr.go", "internal/decoder/unsafe.go", "unmarshal.go: Unmarshal"]}
{"id": "C64", "title": "Syntax errors tell the truth", "statement": "A syntax error that names a character names the one at its Offset, and what its message says is true of the input: the expected byte is not there, the digits are missing, the input ends in the value, the number does not fit.", "quantifier": "every input, every destination type and value, every syntax error", "why_tests_cant": "The messages come from some eighty places in the decoder; for each, every input that reaches it at any depth and cursor has to be considered.", "anchors": ["internal/errors/error.go: ErrSyntax, ErrUnexpected, ErrUnexpectedEnd, ErrInvalidCharacter, ErrInvalidBeginningOfValue, ErrInvalidBeginningOfArray, ErrExceededMaxDepth, ErrUnexpectedStart", "internal/decoder/context.go", "internal/decoder/float.go: processBytes", "internal/decoder/wrapped_string.go", "unmarshal.go: validateEndBuf"]}
{"id": "C65", "title": "Errors in the middle are final", "statement": "If Unmarshal rejects an input for a reason other than that it ends too soon, then it rejects every longer input that begins with it, with the same error and the same contents of the destination; the same for panics.", "quantifier": "every input and every continuation of it, every destination type and value", "why_tests_cant": "A relation between the runs on an input and on each of its infinitely many continuations.", "anchors": ["unmarshal.go: Unmarshal", "internal/decoder/context.go", "internal/decoder/compile.go", "internal/errors/error.go: ErrUnexpectedEnd"]}
{"id": "C66", "title": "Truncated data is recognised", "statement": "Every proper, non-empty beginning of data that Unmarshal accepts is rejected, with an error that says that something is missing at the end; it never panics and is never accepted.", "quantifier": "every accepted input and every point where it is cut off, every destination type and value", "why_tests_cant": "All cuts of all accepted inputs.", "anchors": ["unmarshal.go: Unmarshal, validateEndBuf", "internal/decoder/context.go", "internal/errors/error.go: ErrUnexpectedEnd"]}
{"id": "C67", "title": "PHP has what Marshal writes", "statement": "What Marshal writes denotes a value that PHP can hold without loss: its integers have 64 bits, and the keys of every array are different, where PHP takes a string key that is the decimal notation of a 64-bit integer for that integer.", "quantifier": "every value of every type, every memory, every order of map iteration", "why_tests_cant": "Universal over values of any size and nesting; that no two keys collide depends on all pairs of keys.", "anchors": ["internal/encoder/struct.go: compileStruct", "internal/encoder/map.go", "internal/encoder/uint.go"]}
{"id": "C68", "title": "Through PHP and back", "statement": "If PHP reads what Marshal wrote and writes it again, the text is the same; so Unmarshal gives the value that it would have given for Marshal's own text.", "quantifier": "every value of every type without custom Marshalers, every memory, every order of map iteration", "why_tests_cant": "Universal over values; PHP's renaming of numeric string keys applies at any depth.", "anchors": ["marshal.go: Marshal", "unmarshal.go: Unmarshal", "internal/encoder/map.go", "internal/encoder/struct.go", "internal/decoder/map.go: mapDecoder.Decode", "internal/decoder/struct.go: structDecoder.Decode"]}
{"id": "C69", "title": "Maps hold the last value of every key", "statement": "After Unmarshal of an array into a map, the map holds under every key the value of the last entry of the input with that key, decoded into a zero value and not merged with an older one; keys the input does not mention keep their values; a nil map becomes a map. An array whose keys and values can be decoded on their own is accepted.", "quantifier": "every map type without a custom Unmarshaler, every well-formed input text, every earlier content of the map", "why_tests_cant": "Universal over inputs, map types and earlier contents; repeated keys may be anywhere in the input.", "anchors": ["unmarshal.go: Unmarshal", "internal/decoder/map.go: mapDecoder.Decode"]}
{"id": "C70", "title": "Which values Marshal accepts, and what its errors and panics are about", "statement": "If Marshal returns an error, the type of the value contains a type that cannot be encoded and that is the one the error names; or there is a place in the value that Marshal comes to, where a custom method returned that error, where a slice, map or struct lies inside itself, or where an interface holds something that cannot be encoded, and the error says which. If it panics, a custom method at a place it comes to panicked or had no receiver. One such type or place anywhere in the value is enough for nothing to be encoded. If there is none, Marshal returns bytes if every path down from the value ends, and does not return otherwise.", "quantifier": "every type, value, memory, order of map iteration and custom method; cyclic values included", "why_tests_cant": "Universal over values of unbounded depth, shared and cyclic memory; divergence cannot be observed by a test.", "anchors": ["marshal.go: Marshal", "internal/encoder/compile.go: compile", "internal/encoder/ptr.go: checkRecursiveEncoder, checkStructRecursiveEncoder", "internal/encoder/interface.go: reflectInterfaceValue", "internal/encoder/struct.go: compileStruct", "internal/encoder/error.go: UnsupportedTypeError, UnsupportedTypeAsMapKeyError, UnsupportedInterfaceTypeError"]}
{"id": "C71", "title": "What Unmarshal's errors about types and overflow say is true", "statement": "An error about an unsupported type names a type inside the destination's type that is a pointer to a pointer or a field type that cannot have the string option, or a struct and a key that two of its fields have, or there is an embedded struct; it is the same for every input and leaves the destination as it was. An overflow error names a number that stands in the input, as a number or in a string for a field with the string option, and a kind of number inside the destination's type which cannot hold it. \"empty bytes\" is returned for empty input only, and the error for an invalid destination for nil pointers and values that are not pointers only. No other errors occur except syntax errors, type errors and errors of custom methods.", "quantifier": "every input shorter than 2^63 bytes, destination type and value", "why_tests_cant": "Universal over inputs and (recursive) types; a test sees single errors, not that none is wrong.", "anchors": ["unmarshal.go: Unmarshal, validateValue", "internal/decoder/compile.go: compile, compileStruct", "internal/decoder/ptr.go: newPtrDecoder", "internal/decoder/wrapped_string.go: newWrappedStringDecoder", "internal/decoder/int.go: processBytes", "internal/decoder/uint.go: processBytes", "internal/decoder/float.go: processBytes", "internal/errors/error.go: ErrOverflow"]}
{"id": "C72", "title": "Nothing but the value matters to Marshal", "statement": "What Marshal writes depends only on the value passed: on its scalars, lengths, dynamic types and what is nil. Where in memory its parts lie, whether parts are shared or copied, what lies behind the end of a slice and in which order maps were filled has no influence, except on the order in which map entries are written. Two equal values marshal to the same bytes if their maps have at most one entry each.", "quantifier": "every type, every two memories and values in them that are alike (also cyclic ones), every map order", "why_tests_cant": "Universal over memory layouts and sharing; a test compares a few copies.", "anchors": ["marshal.go: Marshal", "internal/encoder/map.go: compileMap", "internal/encoder/slice.go: compileSlice", "internal/encoder/ptr.go: compilePtr", "internal/encoder/struct.go: compileStruct", "internal/encoder/interface.go: reflectInterfaceValue"]}
{"id": "C73", "title": "Writing again what was read gives the same bytes", "statement": "If Marshal's output is given to Unmarshal with a zero destination of the same type, then Marshal of that destination writes the same bytes again, up to the order of map entries, and reading those gives the same value again.", "quantifier": "every data type, every value of it, every map order", "why_tests_cant": "Universal over types and values; the exceptions (empty slices, pointers to nil slices) are what example-based tests do not think of.", "anchors": ["marshal.go: Marshal", "unmarshal.go: Unmarshal", "internal/encoder/struct.go: compileStruct", "internal/encoder/slice.go: compileSlice", "internal/decoder/slice.go: Decode", "internal/decoder/ptr.go: Decode"]}
{"id": "C74", "title": "Data of old programs can be read by new ones", "statement": "If a destination type is changed by giving types and Go fields other names, integers more bits (or unsigned ones a larger signed type), float32 fields float64, map keys more bits, structs another order of fields or additional fields whose keys the data does not mention, anywhere inside it, then all data that Unmarshal accepted for the old type is accepted for the new one, and the new destination holds the same data under every key of the old type.", "quantifier": "every pair of (recursive) types so related, every input, every pair of destinations holding the same data", "why_tests_cant": "Universal over pairs of types and inputs; tests try the versions that exist.", "anchors": ["unmarshal.go: Unmarshal", "internal/decoder/compile.go: compile", "internal/decoder/struct.go: Decode", "internal/decoder/int.go: processBytes", "internal/decoder/uint.go: processBytes", "internal/decoder/float.go: processBytes", "internal/decoder/map.go: Decode", "internal/decoder/slice.go: Decode"]}
{"id": "C75", "title": "PHP data survives a trip through Go", "statement": "If the shape of a PHP value fits a Go type (lists without gaps that are not empty for slices, arrays of the right length, structs with their fields in the order of declaration and nothing else, omitempty fields present exactly when not empty, floats written the way Go writes them, scalars in interfaces), then Unmarshal of its serialization into a zero value of the type succeeds, and Marshal of the result succeeds and writes the same data; only arrays that Go keeps in maps may have another order. Without maps the bytes are the same. For types without methods the converse holds: only such data comes back as the same bytes.", "quantifier": "every PHP value of at most 1000 nested arrays, every (recursive) type, every memory that holds the result, every map order", "why_tests_cant": "Universal over data and types; tests compare single documents.", "anchors": ["unmarshal.go: Unmarshal", "marshal.go: Marshal", "internal/decoder/struct.go: Decode", "internal/decoder/slice.go: Decode", "internal/decoder/map.go: Decode", "internal/encoder/struct.go: compileStruct", "internal/encoder/slice.go: compileSlice", "internal/encoder/map.go: compileMap"]}
{"id": "C76", "title": "Unmarshal reads its input a bounded number of times", "statement": "A call of Unmarshal that returns or panics has read at most five bytes for each byte of its input, and twelve more, however deeply the data is nested and whatever it is decoded into: no part of the input is scanned again for every level of nesting, for every entry or for every field.", "quantifier": "every input below 2^62 bytes, destination type and value, UnmarshalPHP method and outcome (success, error, panic)", "why_tests_cant": "A test can time some inputs; an attacker chooses the nesting and the lengths, and a second scan per level shows only on inputs nobody tried.", "anchors": ["unmarshal.go: Unmarshal, unmarshal, validateEndBuf", "internal/decoder/context.go: skipValue, readString, readLength, readIntegerBytes", "internal/decoder/interface.go: decodeEmptyInterface", "internal/decoder/unmarshal_php.go: Decode", "internal/decoder/map.go: Decode", "internal/decoder/slice.go: Decode", "internal/decoder/array.go: Decode", "internal/decoder/struct.go: Decode"]}
{"id": "C77", "title": "Decimal texts are decoded to the nearest float", "statement": "A float written in decimal is decoded to the float64 (float32 for a float32 destination) nearest to the number it denotes, ties to even; a number beyond the largest float32 is an error for a float32 destination.", "quantifier": "every decimal text, every destination of float kind", "why_tests_cant": "Whether a text is rounded twice shows only for texts within 2^-54 of the middle between two float32s; random tests do not meet one.", "anchors": ["internal/decoder/float.go: floatDecoder.processBytes"]}
{"id": "C78", "title": "Which bytes Marshal may return for a value", "statement": "Whether Marshal accepts a value does not depend on the order in which maps are iterated. What it may return for a value it accepts is every serialization of the value, with the entries of each map in every order, and nothing else: for every map with two entries the bytes can vary from call to call, and they are fixed if no map has two entries.", "quantifier": "every value and every order of every map iteration", "why_tests_cant": "The order is chosen by the runtime and cannot be set by a test; that an output is possible cannot be shown by not seeing it.", "anchors": ["internal/encoder/map.go", "internal/encoder/map_reflect.go", "marshal.go"]}
{"id": "C79", "title": "Error texts name what the error is about", "statement": "The text of an error names the number that does not fit and the kind of its place, the type that is not supported, the struct and key of a duplicate, the byte found and the offset where these are known, or (type errors) what was found, the struct and field, the type of the place and the offset. An overflow text returned by Unmarshal names a number given in the input, and two overflow texts about integers are equal only if number and kind are.", "quantifier": "every error the library makes itself", "why_tests_cant": "Texts contain arbitrary numbers, type names and keys.", "anchors": ["internal/errors/error.go", "internal/encoder/error.go", "internal/decoder/compile.go"]}
{"id": "C80", "title": "How much Marshal writes", "statement": "The length of what Marshal returns for a value is the same in every call, whatever the order of maps, and is proportional to the value: no small value makes it write an unbounded amount.", "quantifier": "every value, every order of every map iteration", "why_tests_cant": "Lengths under all orders, and the worst value of a given size, are not found by trying values.", "anchors": ["marshal.go", "internal/encoder/map.go", "internal/encoder/map_reflect.go", "internal/encoder/slice.go", "internal/encoder/interface.go"]}
{"id": "C81", "title": "Unmarshal's stack use is bounded", "statement": "However deeply the input is nested, Unmarshal never has more than 20003 calls of its decoders inside of each other (the methods of user types not counted), so no input can exhaust the stack, whatever the destination type, and the limit on nesting is what ensures it. Marshal has no such bound: for every limit there is a value without cycles that needs more nested calls.", "quantifier": "all inputs, accepted destination types (also recursive ones with pointers) and destinations; for Marshal all limits", "why_tests_cant": "Exhausting a Go stack ends the process and cannot be recovered in a test; and the bound must hold for every combination of types and inputs.", "anchors": ["internal/decoder/context.go: skipValue, skipArray, maxDecodeNestingDepth", "internal/decoder/interface.go: decodeEmptyInterface", "internal/decoder/struct.go: Decode", "internal/decoder/slice.go: Decode", "internal/decoder/array.go: Decode", "internal/decoder/map.go: Decode", "internal/decoder/ptr.go: Decode", "internal/encoder/slice_reflect.go"]}
{"id": "C82", "title": "Marshal of a container is made of what Marshal returns for the parts", "statement": "If Marshal accepts a slice, array, map, struct or pointer, what it may return is exactly the array whose values are what Marshal may return for the elements, entries or written fields (for pointers: what it may return for the pointee), under the keys 0, 1, 2, ..., the map keys in some order, or the field keys in declaration order. Conversely, if every part can be marshalled, the container is accepted too or the error reports recursion.", "quantifier": "all container types and values, all memory contents, all orders of map iterations", "why_tests_cant": "The claim relates the output for every container to the outputs of separate calls for its parts, at every nesting depth and in every map order.", "anchors": ["internal/encoder/compile.go: compileType", "internal/encoder/slice.go: compileSlice", "internal/encoder/array.go: compileArray", "internal/encoder/map.go: compileMap", "internal/encoder/struct.go: compileStruct", "internal/encoder/ptr.go"]}
{"id": "C83", "title": "A struct is decoded field by field", "statement": "Unmarshal of an array or object into a struct succeeds exactly if every key is a string or null, every value whose key is no field's is well formed, and every field can take the values under its key one after the other, each as Unmarshal of that value alone would store it over the result before; the fields then hold these results, and ignored fields what they held.", "quantifier": "all struct types, all inputs up to the nesting limit, all previous contents of the struct", "why_tests_cant": "Acceptance and result for every struct and input are related to separate calls for every field, with any number of repeated and unknown keys in any order.", "anchors": ["internal/decoder/struct.go: Decode", "internal/decoder/struct.go: decodeKey", "internal/decoder/wrapped_string.go", "internal/decoder/compile.go: compileStruct"]}
{"id": "C84", "title": "The order of entries does not matter", "statement": "If entries with different keys change places in the arrays and objects of an input, at any depth, Unmarshal accepts the new input exactly if it accepts the old one, and what it stores looks the same to a program that takes elements and fields, looks up map keys, follows pointers and opens interfaces, in any combination. (For types without UnmarshalPHP methods, which see the text.)", "quantifier": "all pairs of inputs that differ in order, all types without methods of their own, all previous contents of the destination", "why_tests_cant": "Every permutation of every array at every depth, for every destination type and previous contents.", "anchors": ["internal/decoder/struct.go: Decode", "internal/decoder/map.go: Decode", "internal/decoder/slice.go: Decode", "internal/decoder/array.go: Decode", "internal/decoder/interface.go: Decode"]}
{"id": "C85", "title": "No reader can tell in which order maps were written", "statement": "Two outputs of Marshal for the same value, which may differ because Go iterates over maps in any order, are accepted by the same destination types, and what Unmarshal stores looks the same for both, whatever the type of the destination is and whatever it held.", "quantifier": "all values without MarshalPHP methods, all iteration orders of all their maps, all destination types without UnmarshalPHP methods, all previous contents", "why_tests_cant": "The iteration order is chosen by the runtime; the readers are arbitrary types of other programs.", "anchors": ["internal/encoder/map.go", "internal/encoder/interface.go", "internal/decoder/map.go: Decode", "internal/decoder/struct.go: Decode", "internal/decoder/interface.go: Decode"]}
{"id": "C86", "title": "Old programs can read the data of new ones", "statement": "If a destination type is changed by leaving out fields of structs anywhere inside it (and giving types and Go fields other names and fields another order), then all data with true counts, in particular everything Marshal writes, that Unmarshal accepts for the full type is accepted for the smaller one, and the smaller destination holds the same data under every key it has.", "quantifier": "all pairs of such types, also recursive ones, all data with true counts, all contents the destinations may hold before", "why_tests_cant": "The types of two versions of a program and the data stored by one of them are not known to the tests of the library.", "anchors": ["internal/decoder/struct.go: Decode", "internal/decoder/context.go: skipValue", "internal/decoder/compile.go: compileStruct"]}
{"id": "C87", "title": "The names of Go types and fields do not matter to Marshal", "statement": "If a type T' has the structure of T, with other names for the types in it, other names for fields whose tags give the same keys, or integers with more bits, then every text Marshal may return for a value as a T it may return for the same value as a T'. In particular a declared type without MarshalPHP is written like the type it is declared from.", "quantifier": "all types, recursive ones included, and all renamings of them, all values and memories, all map iteration orders", "why_tests_cant": "There are infinitely many types and ways to rename them; tests compare a few declared types with their expected text.", "anchors": ["internal/encoder/compile.go: compile, compileType", "internal/encoder/bytes.go: bytesType", "internal/encoder/struct.go: compileStruct", "internal/encoder/ptr.go: compilePtr"]}
{"id": "C88", "title": "Data that is not understood is never accepted", "statement": "If, anywhere in the data (at the top, or as a key or value in arrays and objects at any depth, even in parts the destination ignores), something stands that is no null, bool, int, float, string, array or object, such as a reference (r: or R:), an enum case, a custom object or an escaped string, then Unmarshal does not succeed, whatever the destination. It returns an error if the destination is one where it cannot panic.", "quantifier": "all data, all places in it at any depth, everything that may stand there and follow it, all destination types and contents", "why_tests_cant": "References can stand at infinitely many places, below every type; tests try none of them.", "anchors": ["internal/decoder/interface.go: interfaceDecoder.Decode", "internal/decoder/context.go: skipValue", "internal/decoder/compile.go: CompileToGetDecoder"]}
{"id": "C89", "title": "Unmarshal reads what PHP writes", "statement": "Everything PHP's serialize() writes for a value made of null, booleans, 64-bit integers, floats that strconv can parse, strings, arrays and objects, nested at most 10000 deep, is accepted by an empty interface. The interface then holds exactly that data: arrays become map[any]any and objects map[string]any with the entries that were written and no others. Two such texts without floats and objects that give the same Go value are the same text. Lists can be read into []any, and objects and arrays with strings as keys into map[string]any, with the same elements.", "quantifier": "all PHP data without references, enum cases and self-serializing classes; all earlier contents of the interface", "why_tests_cant": "Tests decode some PHP values; that there is no PHP value that is refused or read as another one is about all trees.", "anchors": ["internal/decoder/interface.go:interfaceDecoder.decodeEmptyInterface", "internal/decoder/map.go:mapDecoder.Decode", "internal/decoder/int.go:intDecoder.Decode"]}
{"id": "C90", "title": "What was decoded can be marshalled safely", "statement": "If Unmarshal accepts an input, whatever the input is, or several inputs one after the other into the same variable, then Marshal of the decoded value returns bytes or an error. It does not panic and does not run forever, wherever the value lies in memory. This is for destinations that were zero at first and whose types have no custom methods and no array type that contains itself. If the type can be encoded, the only errors are that something seems to lie inside itself, that an interface holds a PHP array, or that the string option stands over an interface with a string, array or object. Without interfaces in the type and with at most 1000 levels of slices, maps and pointers there is no error.", "quantifier": "all inputs and sequences of inputs, also hostile ones; all destination types without methods; all layouts of the decoded value in memory; all map orders", "why_tests_cant": "The input may come from an attacker, so a test over well-meant inputs says nothing; that no accepted input leads to a crash or a loop is about all of them.", "anchors": ["marshal.go: Marshal", "unmarshal.go: Unmarshal", "internal/decoder/interface.go: interfaceDecoder.Decode", "internal/encoder/interface.go: compileInterface"]}
{"id": "C91", "title": "Data read into an empty interface can be written again unless an array is in it", "statement": "If Unmarshal reads an input into an empty interface, Marshal of what the interface holds succeeds if and only if no PHP array is in it: null, booleans, numbers, strings and objects of these at any depth are accepted, and what is written is the same data with an array for each object, its property names as keys, in some order. With an array at any depth Marshal returns the error that a map has keys of type any; there is no other error and no panic.", "quantifier": "all inputs that are accepted, all nestings of objects and arrays, all places in memory, all map orders", "why_tests_cant": "Where an array lies in the data, and how deep, is up to the sender; tests try a few places.", "anchors": ["marshal.go: Marshal", "internal/decoder/interface.go: decodeEmptyInterface", "internal/encoder/interface.go: reflectInterfaceValue", "internal/encoder/map_reflect.go"]}
