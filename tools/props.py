import json
P=[]
def p(id,title,statement,quant,why,anchors):
    P.append(dict(id=id,title=title,statement=statement,quantifier=quant,why_tests_cant=why,anchors=anchors))
D="internal/decoder/"; E="internal/encoder/"
p("C01","Unmarshal always returns",
 "Once the destination type has been accepted, Unmarshal(data, &v) returns after finitely many steps for every data: no input makes the decoder loop or recurse for ever.",
 "every byte string, every destination type (including recursive structs), every prior content of the destination",
 "Termination is a claim about all inputs; a test can only run inputs that happen to finish.",
 [D+"context.go: skipValue, skipArray",D+"slice.go: Decode",D+"map.go: Decode",D+"struct.go: Decode",D+"array.go: Decode","unmarshal.go: unmarshal"])
p("C02","Unmarshal never reads outside its input",
 "For every data, however truncated or corrupted and whatever lengths it declares (up to and beyond 2^63), Unmarshal never indexes or slices the input out of range, so it never panics with 'index out of range' or 'slice bounds out of range', and never reports success with a position outside the input.",
 "every byte string, every destination type, every prior content",
 "The bound checks are spread over some forty sites and interact with int64 overflow of attacker supplied lengths; fuzzing samples.",
 [D+"context.go: hasByte, hasBytes, readString, skipClassName",D+"ptr.go: Decode",D+"bytes.go: decodeBinary",D+"interface.go: decodeEmptyInterface","unmarshal.go: validateEndBuf"])
p("C03","Unmarshal never panics (destinations without slices or interface/pointer map keys)",
 "If the destination type contains no slice, no map whose key type is an interface or a pointer, then for every data Unmarshal returns normally (a nil or non-nil error): no panic of any sort. This covers any, scalars, strings, arrays, structs, pointers, string/int/uint/bool keyed maps, nested arbitrarily.",
 "every byte string, every such destination type and prior content",
 "Universal over inputs and over types.",
 [D+"compile.go: compile",D+"map.go: Decode",D+"array.go: Decode","unmarshal.go: unmarshal"])
p("C04","Unmarshal into a slice never panics",
 "For every data, Unmarshal into a slice destination returns a nil or non-nil error and does not panic (the repository's own FuzzUnmarshalDoesNotPanic asserts this for []any).",
 "every byte string, slice destinations",
 "The violating inputs are single points (a declared length or index near 2^63) in an astronomically large input space.",
 [D+"slice.go: Decode (MakeSlice lines 105 and 122)",D+"context.go: readLengthInt",D+"int.go: readInt"])
p("C05","Unmarshal into a map never panics",
 "For every data, Unmarshal into a map destination (any key type the decoder accepts, in particular map[any]T and map[*int]T) returns a nil or non-nil error and does not panic.",
 "every byte string, every map type",
 "Only inputs whose key is itself an array, or types with pointer keys, exhibit the failure.",
 [D+"map.go: Decode (SetMapIndex)",D+"compile.go: compileMapKey",D+"interface.go: decodeEmptyInterface"])
p("C06","Success means the whole input was consumed",
 "If Unmarshal returns nil then data is exactly one serialized value: appending any non-empty bytes to an accepted input makes Unmarshal return an error.",
 "every accepted input, every non-empty suffix, every destination",
 "Universal over suffixes and accepted inputs.",
 ["unmarshal.go: validateEndBuf"])
p("C07","Truncated input is rejected",
 "If data is accepted (for some destination) then no strict prefix of data is accepted for any destination.",
 "every accepted input, every strict prefix, every pair of destinations",
 "The test in the repository truncates eight literals; the claim is about all inputs.",
 ["regression_test.go: TestUnmarshalTruncatedInputDoesNotPanic",D+"context.go"])
p("C08","Unmarshal accepts exactly the serialization grammar and stores what it denotes",
 "Unmarshal(data,&v) succeeds with result w if and only if the type is accepted and data is the text of some serialized value p and storing p into a destination of that type holding v yields w, where 'text of' and 'storing' are given by a short separate grammar and storing relation that mention no cursors or buffers.",
 "every byte string, every destination type and prior content, both directions",
 "Full functional correctness of a parser.",
 [D+"*.go: Decode methods","unmarshal.go: Unmarshal"])
p("C09","Signed integers decode exactly",
 "i:<digits>; decodes into a signed integer of w bits iff the digits are an optional minus sign followed by at least one decimal digit and the number lies in [-2^(w-1), 2^(w-1)-1]; the stored number is that number; otherwise Unmarshal returns an error and the destination is unchanged. No wrap-around, whatever the number of digits or leading zeros.",
 "every byte string between 'i:' and ';', every width",
 "Overflow arithmetic must be right for all digit strings.",
 [D+"int.go: parseInt64, processBytes",D+"context.go: readIntegerBytes"])
p("C10","Unsigned integers decode exactly",
 "i:<digits>; decodes into an unsigned integer of w bits iff the text is at least one decimal digit and the number is at most 2^w-1; the stored number is that number; otherwise an error, destination unchanged.",
 "every byte string between 'i:' and ';', every width",
 "As C09.",
 [D+"uint.go: parseUint, processBytes"])
p("C11","Strings are binary safe and length checked",
 "s:<n>:\"<bytes>\"; decodes into a string iff n is exactly the number of bytes between the quotes that end the value; the bytes may be anything (quotes, semicolons, NUL, invalid UTF-8); the stored string is byte for byte those bytes.",
 "every content, every declared length",
 "Contents that imitate the terminator are the hard cases and are unbounded.",
 [D+"context.go: readString",D+"string.go: decodeByte"])
p("C12","skip agrees with the strict grammar",
 "A value under an unknown struct key, an out-of-range array index, or handed to a custom Unmarshaler is accepted iff it is a well-formed value whose declared element counts all equal the number of elements and whose nesting stays within the limit; exactly that value's bytes are consumed.",
 "every byte string, every position and depth",
 "Parser correctness.",
 [D+"context.go: skipValue, skipArray, skipString, skipInt"])
p("C13","Nesting depth limit",
 "No input whose arrays/objects are nested more than 10000 deep is ever accepted, into any destination; and nesting up to 10000 is never a reason for rejection when decoding into any.",
 "every input and destination type",
 "Needs every path (typed, any, skipped) to count depth consistently.",
 [D+"type.go: maxDecodeNestingDepth",D+"context.go: skipArray",D+"map.go",D+"struct.go",D+"slice.go",D+"array.go"])
p("C14","Unknown struct keys are ignored",
 "Inserting, anywhere in an accepted struct body, an entry whose key names no field of the destination struct and whose value is well formed does not change the outcome of Unmarshal.",
 "every struct type, every accepted body, every position, every well-formed extra value",
 "Universal over bodies and positions.",
 [D+"struct.go: Decode, decodeKey"])
p("C15","Struct field order is irrelevant",
 "Two struct bodies that are permutations of each other, with pairwise distinct keys, decode to the same struct.",
 "every struct type, every permutation",
 "Factorially many orders.",
 [D+"struct.go: Decode"])
p("C16","Fields not named in the input keep their value; ignored fields are never written",
 "After a successful Unmarshal into a struct, every field whose key does not occur in the input, every unexported field and every field tagged php:\"-\" holds the value it held before.",
 "every struct type, every input, every prior value",
 "Frame condition: says what must not change for all inputs.",
 [D+"struct.go",D+"compile.go: compileStruct","internal/runtime/struct_field.go: IsIgnoredStructField"])
p("C17","Null",
 "Decoding N; sets pointers, slices, maps and interfaces to nil and leaves numbers, booleans, strings, arrays and structs as they were.",
 "every destination type and prior value",
 "Universal over types and prior values.",
 [D+"*.go: validateNull call sites"])
p("C18","Decoding into any",
 "Decoding into any yields nil, bool, int64, float64, string, map[any]any (for arrays; keys only int64 or string) or map[string]any (for objects), recursively, and nothing else; the previous content of the any is irrelevant.",
 "every accepted input, every prior content",
 "Universal over inputs; a closure property of a recursive decoder.",
 [D+"interface.go: decodeEmptyInterface, mapKeyDecoder"])
p("C19","Slices from arrays with gaps, repeats and any order",
 "Decoding an array with integer keys into a slice of scalars yields a slice whose length is the greatest key plus one, whose element i is the value stored under the last occurrence of key i, and the zero value where there is no key i.",
 "every list of entries",
 "Universal over key sequences.",
 [D+"slice.go: Decode"])
p("C20","Fixed arrays",
 "Decoding an array with integer keys into [n]T keeps length n, stores element i from the last entry with key i, zero where absent, and ignores entries with key >= n (their values must still be well formed).",
 "every list of entries, every n",
 "Universal over key sequences and n.",
 [D+"array.go: Decode"])
p("C21","Declared element counts are enforced",
 "Unmarshal rejects an array or object whose declared element count differs from the number of elements present.",
 "every input and destination",
 "Holds for skipped values but not for typed ones; only a for-all statement separates the two.",
 [D+"map.go",D+"slice.go",D+"struct.go",D+"array.go",D+"context.go: skipArray"])
p("C22","Object class names are irrelevant",
 "Decoding O:n:\"Class\":k:{body} into a struct or map gives exactly the result of decoding a:k:{body}, for every class name of n bytes.",
 "every class name, every body, every struct/map type",
 "Universal over names and bodies.",
 [D+"context.go: skipClassName",D+"struct.go",D+"map.go"])
p("C23","Custom Unmarshalers receive exactly the raw value",
 "A destination type implementing Unmarshaler is called once with exactly the bytes of its serialized value (never unquoted or altered), except that N; sets it to its zero value without a call; if the method errors, Unmarshal errors and the destination is unchanged.",
 "every input, every Unmarshaler behaviour",
 "The unquoting code behind it must be shown unreachable for all inputs.",
 [D+"unmarshal_php.go: Decode, unquoteBytes",D+"interface.go: decodePHPUnmarshaler"])
p("C24","Bad targets are reported, not panicked on",
 "Unmarshal with a nil target, a non-pointer target, or a nil pointer returns an error, whatever the data.",
 "every data, every invalid target",
 "The nil-target check is dead code behind a panicking call.",
 ["unmarshal.go: unmarshal, validateValue"])
p("C25","Decoder type checking",
 "Unmarshal into a type containing (at any reachable depth) a pointer to a pointer, an embedded struct or pointer-to-struct field, two fields with one key, or a string-tagged field that is neither bool, int, uint, float nor an untagged-as-string kind, returns an error before touching the destination, for every data.",
 "every type, every data",
 "Universal over types.",
 [D+"compile.go",D+"ptr.go: newPtrDecoder",D+"wrapped_string.go: newWrappedStringDecoder"])
p("C26","Compiling a destination type terminates",
 "For every Go type, Unmarshal's compilation of the destination type terminates.",
 "every type, in particular recursive ones",
 "Recursive types without a struct on the cycle are the exception.",
 [D+"compile.go: compile, compileSlice, compileMap, compileStruct"])
p("C27","A failed decode of a scalar or any leaves the destination alone",
 "If Unmarshal returns an error and the destination is a bool, number, string, []byte from a string, or any, the destination is unchanged.",
 "every failing input, every prior value",
 "Frame condition over all failing inputs.",
 [D+"int.go",D+"uint.go",D+"float.go",D+"bool.go",D+"string.go",D+"interface.go"])
p("C28","Marshal emits exactly PHP's serialization of the value",
 "Whatever Marshal returns is PHP serialize() of the PHP value its argument represents, and Marshal succeeds for every value of supported type that unfolds finitely with at most 1000 containers nested in each other (or, at any depth, with no slice of concrete type inside an interface and every container different from those it lies in): booleans, integers, floats, strings map to scalars, slices/arrays/maps/structs to arrays whose declared count is the number of entries, nil to null.",
 "every value of every supported type in every heap, every map iteration order",
 "Universal over values; refinement of a cursor/reflection based encoder to a printer.",
 [E+"*.go","marshal.go"])
p("C29","Length prefixes are right",
 "The length printed before a string-tagged integer equals the number of bytes of its decimal form, for every int64 (including the minimum) and every uint64.",
 "all int64, all uint64",
 "2^64 values each.",
 [E+"int_as_string.go: iterativeDigitsCount",E+"uint_at_string.go: uintDigitsCount"])
p("C30","Distinct PHP values have distinct encodings",
 "Marshal output determines the PHP value: if two values have the same output they represent the same PHP value, and no output is a strict prefix of another.",
 "every pair of values",
 "Injectivity over an infinite domain.",
 [E+"*.go"])
p("C31","Struct encoding: which fields, in which order",
 "Marshal of a struct emits, in declaration order, exactly the exported fields not tagged '-' and not omitted by omitempty-and-zero; a nil pointer field is null.",
 "every struct type and value",
 "Universal over types and values.",
 [E+"struct.go: compileStructFields, compileStructFieldsEncoders"])
p("C32","Marshal of a recursive value returns an error",
 "Marshal terminates on every value, including cyclic ones, and returns an error for cyclic ones.",
 "every heap, every value, every type",
 "Termination on all cyclic graphs; only some cycles go through the tracked containers.",
 [E+"ptr.go: checkStructRecursiveEncoder, checkRecursiveEncoder",E+"interface.go: reflectInterfaceValue, reflectRecursiveValue",E+"struct_reflect.go"])
p("C33","Marshal never rejects a finite value as recursive",
 "A value with finite unfolding of supported type is never rejected with the recursion error, however deep.",
 "every finite value",
 "Counterexamples need aliasing slices or more than 1000 levels.",
 [E+"interface.go: reflectRecursiveValue",E+"slice_reflect.go",E+"ptr.go"])
p("C34","Marshal calls do not influence later calls",
 "Whatever sequence of Marshal calls (succeeding or failing) has gone before on a pooled context, a Marshal call returns what it returns on a fresh context.",
 "every history of calls",
 "Quantifies over histories.",
 [E+"context.go",E+"marshal.go",E+"ptr.go",E+"interface.go"])
p("C35","Typed round trip",
 "Unmarshal(Marshal(v)) into a zero value of v's type gives back v, for types built from booleans, integers, floats, strings, bytes, slices, arrays, maps, pointers and structs that both sides support, with exactly these differences: an empty non-nil slice comes back nil, a nil []byte comes back empty, a pointer to a nil slice or map comes back nil, fields that are not written (unexported, tagged '-', omitted by omitempty) come back zero, and map order is free. Values nest containers less than 10000 deep, and their floats are ones strconv formats and parses back (see C42).",
 "every value of every such type",
 "Round trip over an infinite domain.",
 ["marshal.go","unmarshal.go"])
p("C36","any round trip",
 "Unmarshal(Marshal(v)) into any gives the any-representation of v's PHP value, and re-marshalling it gives back a serialization of the same PHP value.",
 "every value",
 "As C35.",
 ["marshal.go","unmarshal.go",D+"interface.go"])
p("C37","Map iteration order does not matter",
 "Whatever order the runtime iterates a map in, the output decodes to the same map.",
 "every map, every permutation",
 "Factorially many orders chosen by the runtime.",
 [E+"map.go",E+"map_reflect.go",D+"map.go"])
p("C38","Custom Marshalers are honoured",
 "Wherever a value whose type implements Marshaler occurs, its MarshalPHP bytes appear verbatim in the output, and its error is Marshal's error.",
 "every type, every position (top level, element, field, pointer field, inside an interface)",
 "Positions are unboundedly many; some dispatch paths bypass the check.",
 [E+"marshal_php.go",E+"interface.go: reflectInterfaceValue",E+"struct.go: compileStructFieldsEncoders"])
p("C39","Marshal does not panic on nil",
 "Marshal of a nil pointer or nil interface, wherever it occurs, encodes null and does not panic.",
 "every type, every position",
 "Only particular combinations of Marshaler and nil fail.",
 [E+"marshal_php.go: compileMarshaler",E+"ptr.go"])
p("C40","Compiling a source type terminates",
 "For every Go type, Marshal's compilation of the type terminates.",
 "every type, in particular recursive ones",
 "Only recursion through a fixed-size array fails.",
 [E+"array.go: compileArray",E+"compile.go",E+"compile_cache.go"])
p("C41","String-tagged fields round trip",
 "A field tagged ',string' that Marshal can encode is decoded back by Unmarshal to the same value.",
 "every field type and value",
 "Universal over types and values; fails for the string kind only.",
 [E+"compile.go: compileAsString",D+"wrapped_string.go"])
p("C42","Special floats",
 "NaN and both infinities are encoded as NAN, INF, -INF and decode back; every finite float is encoded so that decoding gives back the same float (including -0 and subnormals).",
 "every float64 and float32",
 "2^64 values.",
 [E+"float.go",D+"float.go"])
p("C43","The type caches are transparent under every schedule",
 "For every interleaving of concurrent Marshal (or Unmarshal) calls, the encoder (decoder) a call uses is the one compiling its type yields; a published cache map is never mutated; lost updates only cost recompilation.",
 "every number of goroutines, every schedule",
 "Schedules cannot be enumerated by tests.",
 [E+"compile_cache.go",D+"compile.go: CompileToGetDecoder, storeDecoder"])
p("C44","Pooled buffers never leak between calls",
 "For every interleaving of concurrent and nested Marshal calls sharing the buffer pools, the bytes returned by a call are that call's bytes and never change afterwards.",
 "every number of goroutines, every schedule",
 "Schedules and pool behaviour cannot be enumerated by tests.",
 [E+"buffer.go",E+"context.go",E+"marshal.go",E+"struct.go"])
p("C45","Field naming agrees between Marshal and Unmarshal",
 "For every field and tag, Marshal writes the field under a key iff Unmarshal reads the field from that key.",
 "every field name and tag string",
 "Universal over tag strings.",
 ["internal/runtime/struct_field.go",E+"struct.go",D+"compile.go: compileStruct"])
p("C46","Every encodable type is encodable inside an interface",
 "If Marshal(v) succeeds then Marshal of an any-typed field or element holding v succeeds with the same encoding of v.",
 "every type and value",
 "Two dispatchers must agree on all kinds.",
 [E+"interface.go: reflectInterfaceValue",E+"compile.go: compile"])
p("C47","Decoded byte slices are independent",
 "Two []byte values produced by one Unmarshal share no memory a caller can reach: appending to or writing one never changes the other; nor does changing data after the call.",
 "every input, every sequence of appends and writes",
 "Aliasing shows only when spare capacity is used.",
 [D+"bytes.go: Decode",D+"context.go: readString","unmarshal.go: unmarshal"])
p("C48","Unsigned values survive any",
 "Every value Marshal accepts can be decoded into any.",
 "every value",
 "Only uint64 above 2^63-1 fails.",
 [E+"uint.go",D+"interface.go",D+"int.go: parseInt64"])
p("C49","Destinations without sharing are decoded as values",
 "If every pointer, map and slice reachable from the destination has an allocation of its own, Unmarshal leaves in it exactly the value determined by data and the value it held before, again without sharing, and changes no other memory.",
 "every input, type, memory and destination without sharing",
 "Universal over heaps; reuse of pointees and maps depends on the previous contents.",
 ["unmarshal.go",D+"ptr.go",D+"map.go",D+"slice.go",D+"struct.go",D+"array.go"])
p("C50","Unmarshal writes only to its destination",
 "Unmarshal(data, p) changes only variables reachable from p through fields, array elements, pointers and interfaces, and maps held in them, whatever is shared; elements of slices the destination held before the call are never written.",
 "every input, type and memory, with sharing and cycles",
 "Universal over heaps.",
 ["unmarshal.go",D+"slice.go",D+"ptr.go",D+"map.go",D+"interface.go"])
p("C51","Unmarshal ends on every destination",
 "Unmarshal into any memory, even a structure that contains itself, comes to an end without reading outside data, and returns nil only if data is exactly one serialized value.",
 "every input, type and memory, with sharing and cycles",
 "Cyclic destinations cannot be enumerated.",
 ["unmarshal.go",D+"ptr.go",D+"struct.go"])
p("C52","Concurrent and nested Unmarshal calls do not affect each other",
 "Each call of Unmarshal has the outcome it would have alone, whatever other calls run at the same time, inside its UnmarshalPHP methods or before it; the memory behind decoded byte slices is never changed by another call; no call waits for another; reused contexts keep no data of earlier calls.",
 "every number of goroutines, sequence of calls, nesting and schedule",
 "Universal over schedules; reuse through sync.Pool is not reproducible.",
 ["unmarshal.go: Unmarshal",D+"context.go: TakeRuntimeContext, ReleaseRuntimeContext"])
p("C53","Memory is proportional to the input",
 "The room for map entries and slice elements that Unmarshal asks for, accepted input or not, is bounded by a constant times len(data); there are at most len(data) requests.",
 "every input, type, destination and outcome",
 "A resource bound over all inputs; a test measures single inputs.",
 [D+"map.go: Decode",D+"slice.go: Decode",D+"interface.go",D+"context.go: readLength"])
p("C54","Lists are decoded in linear memory",
 "Decoding an honest list of m elements into a slice asks for room for a number of elements proportional to m.",
 "every list, slice type and destination",
 "An asymptotic claim: no finite set of sizes settles it.",
 [D+"slice.go: Decode"])
p("C55","Struct tags",
 "A field's key is the part of its php tag before the first comma if that is a non-empty valid name (UTF-8 letters, digits and the listed punctuation), otherwise its Go name. Unmarshal leaves alone fields that are unexported or tagged '-'. Marshal writes exported fields in order under their keys, except those named '-' and zero values with the option omitempty; options are whole words after the first comma.",
 "every struct type, tag and value",
 "Tags are arbitrary strings, including invalid UTF-8; tests try a few.",
 ["internal/runtime/struct_field.go: IsIgnoredStructField, isValidTag, StructTagFromField",D+"compile.go: compileStruct",E+"compile.go: compileStruct"])
p("C56","Decoding twice is decoding once",
 "If Unmarshal(data, &x) returns nil, calling it again returns nil and leaves x unchanged, for every x whose type contains no interface with methods and whose maps have string, boolean or integer keys; whatever x held before, and however often the data names a field or key.",
 "every input, every such type and every value of it",
 "Universal over inputs and previous contents; merging into maps, pointers and structs depends on both.",
 ["unmarshal.go: Unmarshal",D+"map.go",D+"ptr.go",D+"struct.go",D+"array.go",D+"slice.go"])
p("C57","Acceptance does not depend on what the destination holds",
 "For a type containing no interface with methods, Unmarshal(data, &x) returns nil for one value of x iff it does for every value of x.",
 "every input, type, and pair of destination values",
 "Universal over pairs of previous contents.",
 ["unmarshal.go: Unmarshal",D+"ptr.go",D+"map.go",D+"struct.go"])
p("C58","Pointers are transparent",
 "Unmarshal into a pointer variable has the same outcome as into what it points to (a new zero value if it is nil), except that null makes the pointer nil.",
 "every input, pointee type and value",
 "Universal over types and inputs.",
 [D+"ptr.go: Decode",D+"compile.go: compilePtr"])
p("C59","Error offsets point into the input",
 "When Unmarshal returns a SyntaxError or UnmarshalTypeError, its Offset is between 0 and len(data), also for errors inside nested values; for bytes after a complete value it is the number of bytes of that value plus one.",
 "every input, destination type and value",
 "Universal over malformed inputs; every check in every decoder computes its own offset.",
 ["internal/errors/error.go: SyntaxError, UnmarshalTypeError",D+"context.go","unmarshal.go: validateEndBuf"])
p("C60","Methods may use their argument as they like",
 "What an UnmarshalPHP method does to the bytes it is given (overwrite them, append to them) does not influence what the rest of the input is decoded to, nor whether it is accepted.",
 "every input, destination, and every set of methods",
 "Universal over what user code does with the slice; the effect depends on what happens to follow in the input.",
 ["unmarshal.go: unmarshal",D+"unmarshal_php.go: Decode",D+"interface.go: decodePHPUnmarshaler"])
p("C61","Errors are compositional",
 "When Unmarshal rejects a text for a type, it rejects every longer input in which that text stands where a value of that type is expected, with the same error, its offset moved by the number of bytes before the text; the destination of that value is left as rejecting the text alone leaves it, everything before it has been stored, and nothing after it.",
 "every type, every place inside it at any depth, every rejected text, every beginning of an input that leads to that place, every old value",
 "Universal over all contexts of an error; tests fix a few places.",
 ["unmarshal.go: Unmarshal",D+"struct.go: Decode",D+"map.go: Decode",D+"slice.go: Decode",D+"array.go: Decode",D+"ptr.go: Decode",D+"interface.go: decodeEmptyInterface"])
p("C62","Type errors say what was found where",
 "When data does not fit the type of the place it is to be stored in, Unmarshal returns an UnmarshalTypeError whose Offset, Value, Type, Struct and Field are the place in the input, the data found, the type of the place, and the innermost struct type around the place and its field; everything before it has been stored. No UnmarshalTypeError is about a place that the destination cannot have.",
 "every destination type, every place inside it at any depth, every beginning of an input that leads to that place, every kind of data that does not fit there",
 "Universal over places and data; the names are fixed per decoder when a type is first compiled, so they depend on the order in which recursive types are met.",
 ["internal/errors/error.go: UnmarshalTypeError",D+"int.go: typeError",D+"uint.go: typeError",D+"string.go",D+"compile.go: compileStruct",D+"interface.go",D+"unmarshal_php.go: annotateError"])
p("C63","The inputs that make Unmarshal panic",
 "Unmarshal panics exactly when, after a beginning of the input that is accepted, a slice destination meets a declared count or an index too large to allocate, a map with pointer keys meets a key that is not null, or a map meets a key that Go cannot hash; what was stored before stays, and every other input makes Unmarshal return.",
 "every input, every destination type and value, every place inside it at any depth",
 "An equivalence over all inputs and all types; the panicking place may lie at any depth after any accepted beginning.",
 [D+"slice.go: sliceDecoder.Decode",D+"map.go: mapDecoder.Decode",D+"ptr.go",D+"unsafe.go","unmarshal.go: Unmarshal"])
p("C64","Syntax errors tell the truth",
 "A syntax error that names a character names the one at its Offset, and what its message says is true of the input: the expected byte is not there, the digits are missing, the input ends in the value, the number does not fit.",
 "every input, every destination type and value, every syntax error",
 "The messages come from some eighty places in the decoder; for each, every input that reaches it at any depth and cursor has to be considered.",
 ["internal/errors/error.go: ErrSyntax, ErrUnexpected, ErrUnexpectedEnd, ErrInvalidCharacter, ErrInvalidBeginningOfValue, ErrInvalidBeginningOfArray, ErrExceededMaxDepth, ErrUnexpectedStart",D+"context.go",D+"float.go: processBytes",D+"wrapped_string.go","unmarshal.go: validateEndBuf"])
p("C65","Errors in the middle are final",
 "If Unmarshal rejects an input for a reason other than that it ends too soon, then it rejects every longer input that begins with it, with the same error and the same contents of the destination; the same for panics.",
 "every input and every continuation of it, every destination type and value",
 "A relation between the runs on an input and on each of its infinitely many continuations.",
 ["unmarshal.go: Unmarshal",D+"context.go",D+"compile.go","internal/errors/error.go: ErrUnexpectedEnd"])
p("C66","Truncated data is recognised",
 "Every proper, non-empty beginning of data that Unmarshal accepts is rejected, with an error that says that something is missing at the end; it never panics and is never accepted.",
 "every accepted input and every point where it is cut off, every destination type and value",
 "All cuts of all accepted inputs.",
 ["unmarshal.go: Unmarshal, validateEndBuf",D+"context.go","internal/errors/error.go: ErrUnexpectedEnd"])
p("C67","PHP has what Marshal writes",
 "What Marshal writes denotes a value that PHP can hold without loss: its integers have 64 bits, and the keys of every array are different, where PHP takes a string key that is the decimal notation of a 64-bit integer for that integer.",
 "every value of every type, every memory, every order of map iteration",
 "Universal over values of any size and nesting; that no two keys collide depends on all pairs of keys.",
 [E+"struct.go: compileStruct",E+"map.go",E+"uint.go"])
p("C68","Through PHP and back",
 "If PHP reads what Marshal wrote and writes it again, the text is the same; so Unmarshal gives the value that it would have given for Marshal's own text.",
 "every value of every type without custom Marshalers, every memory, every order of map iteration",
 "Universal over values; PHP's renaming of numeric string keys applies at any depth.",
 ["marshal.go: Marshal","unmarshal.go: Unmarshal",E+"map.go",E+"struct.go",D+"map.go: mapDecoder.Decode",D+"struct.go: structDecoder.Decode"])
p("C69","Maps hold the last value of every key",
 "After Unmarshal of an array into a map, the map holds under every key the value of the last entry of the input with that key, decoded into a zero value and not merged with an older one; keys the input does not mention keep their values; a nil map becomes a map. An array whose keys and values can be decoded on their own is accepted.",
 "every map type without a custom Unmarshaler, every well-formed input text, every earlier content of the map",
 "Universal over inputs, map types and earlier contents; repeated keys may be anywhere in the input.",
 ["unmarshal.go: Unmarshal",D+"map.go: mapDecoder.Decode"])
p("C70","Which values Marshal accepts, and what its errors and panics are about",
 "If Marshal returns an error, the type of the value contains a type that cannot be encoded and that is the one the error names; or there is a place in the value that Marshal comes to, where a custom method returned that error, where a slice, map or struct lies inside itself, or where an interface holds something that cannot be encoded, and the error says which. If it panics, a custom method at a place it comes to panicked or had no receiver. One such type or place anywhere in the value is enough for nothing to be encoded. If there is none, Marshal returns bytes if every path down from the value ends, and does not return otherwise.",
 "every type, value, memory, order of map iteration and custom method; cyclic values included",
 "Universal over values of unbounded depth, shared and cyclic memory; divergence cannot be observed by a test.",
 ["marshal.go: Marshal",E+"compile.go: compile",E+"ptr.go: checkRecursiveEncoder, checkStructRecursiveEncoder",E+"interface.go: reflectInterfaceValue",E+"struct.go: compileStruct",E+"error.go: UnsupportedTypeError, UnsupportedTypeAsMapKeyError, UnsupportedInterfaceTypeError"])
p("C71","What Unmarshal's errors about types and overflow say is true",
 "An error about an unsupported type names a type inside the destination's type that is a pointer to a pointer or a field type that cannot have the string option, or a struct and a key that two of its fields have, or there is an embedded struct; it is the same for every input and leaves the destination as it was. An overflow error names a number that stands in the input, as a number or in a string for a field with the string option, and a kind of number inside the destination's type which cannot hold it. \"empty bytes\" is returned for empty input only, and the error for an invalid destination for nil pointers and values that are not pointers only. No other errors occur except syntax errors, type errors and errors of custom methods.",
 "every input shorter than 2^63 bytes, destination type and value",
 "Universal over inputs and (recursive) types; a test sees single errors, not that none is wrong.",
 ["unmarshal.go: Unmarshal, validateValue",D+"compile.go: compile, compileStruct",D+"ptr.go: newPtrDecoder",D+"wrapped_string.go: newWrappedStringDecoder",D+"int.go: processBytes",D+"uint.go: processBytes",D+"float.go: processBytes","internal/errors/error.go: ErrOverflow"])
p("C72","Nothing but the value matters to Marshal",
 "What Marshal writes depends only on the value passed: on its scalars, lengths, dynamic types and what is nil. Where in memory its parts lie, whether parts are shared or copied, what lies behind the end of a slice and in which order maps were filled has no influence, except on the order in which map entries are written. Two equal values marshal to the same bytes if their maps have at most one entry each.",
 "every type, every two memories and values in them that are alike (also cyclic ones), every map order",
 "Universal over memory layouts and sharing; a test compares a few copies.",
 ["marshal.go: Marshal",E+"map.go: compileMap",E+"slice.go: compileSlice",E+"ptr.go: compilePtr",E+"struct.go: compileStruct",E+"interface.go: reflectInterfaceValue"])
p("C73","Writing again what was read gives the same bytes",
 "If Marshal's output is given to Unmarshal with a zero destination of the same type, then Marshal of that destination writes the same bytes again, up to the order of map entries, and reading those gives the same value again.",
 "every data type, every value of it, every map order",
 "Universal over types and values; the exceptions (empty slices, pointers to nil slices) are what example-based tests do not think of.",
 ["marshal.go: Marshal","unmarshal.go: Unmarshal",E+"struct.go: compileStruct",E+"slice.go: compileSlice",D+"slice.go: Decode",D+"ptr.go: Decode"])
p("C74","Data of old programs can be read by new ones",
 "If a destination type is changed by giving types and Go fields other names, integers more bits (or unsigned ones a larger signed type), float32 fields float64, map keys more bits, structs another order of fields or additional fields whose keys the data does not mention, anywhere inside it, then all data that Unmarshal accepted for the old type is accepted for the new one, and the new destination holds the same data under every key of the old type.",
 "every pair of (recursive) types so related, every input, every pair of destinations holding the same data",
 "Universal over pairs of types and inputs; tests try the versions that exist.",
 ["unmarshal.go: Unmarshal",D+"compile.go: compile",D+"struct.go: Decode",D+"int.go: processBytes",D+"uint.go: processBytes",D+"float.go: processBytes",D+"map.go: Decode",D+"slice.go: Decode"])
p("C75","PHP data survives a trip through Go",
 "If the shape of a PHP value fits a Go type (lists without gaps that are not empty for slices, arrays of the right length, structs with their fields in the order of declaration and nothing else, omitempty fields present exactly when not empty, floats written the way Go writes them, scalars in interfaces), then Unmarshal of its serialization into a zero value of the type succeeds, and Marshal of the result succeeds and writes the same data; only arrays that Go keeps in maps may have another order. Without maps the bytes are the same. For types without methods the converse holds: only such data comes back as the same bytes.",
 "every PHP value of at most 1000 nested arrays, every (recursive) type, every memory that holds the result, every map order",
 "Universal over data and types; tests compare single documents.",
 ["unmarshal.go: Unmarshal","marshal.go: Marshal",D+"struct.go: Decode",D+"slice.go: Decode",D+"map.go: Decode",E+"struct.go: compileStruct",E+"slice.go: compileSlice",E+"map.go: compileMap"])
p("C76","Unmarshal reads its input a bounded number of times",
 "A call of Unmarshal that returns or panics has read at most five bytes for each byte of its input, and twelve more, however deeply the data is nested and whatever it is decoded into: no part of the input is scanned again for every level of nesting, for every entry or for every field.",
 "every input below 2^62 bytes, destination type and value, UnmarshalPHP method and outcome (success, error, panic)",
 "A test can time some inputs; an attacker chooses the nesting and the lengths, and a second scan per level shows only on inputs nobody tried.",
 ["unmarshal.go: Unmarshal, unmarshal, validateEndBuf", D+"context.go: skipValue, readString, readLength, readIntegerBytes", D+"interface.go: decodeEmptyInterface", D+"unmarshal_php.go: Decode", D+"map.go: Decode", D+"slice.go: Decode", D+"array.go: Decode", D+"struct.go: Decode"])
p("C77","Decimal texts are decoded to the nearest float",
 "A float written in decimal is decoded to the float64 (float32 for a float32 destination) nearest to the number it denotes, ties to even; a number beyond the largest float32 is an error for a float32 destination.",
 "every decimal text, every destination of float kind",
 "Whether a text is rounded twice shows only for texts within 2^-54 of the middle between two float32s; random tests do not meet one.",
 [D+"float.go: floatDecoder.processBytes"])
p("C78","Which bytes Marshal may return for a value",
 "Whether Marshal accepts a value does not depend on the order in which maps are iterated. What it may return for a value it accepts is every serialization of the value, with the entries of each map in every order, and nothing else: for every map with two entries the bytes can vary from call to call, and they are fixed if no map has two entries.",
 "every value and every order of every map iteration",
 "The order is chosen by the runtime and cannot be set by a test; that an output is possible cannot be shown by not seeing it.",
 [E+"map.go",E+"map_reflect.go","marshal.go"])
p("C79","Error texts name what the error is about",
 "The text of an error names the number that does not fit and the kind of its place, the type that is not supported, the struct and key of a duplicate, the byte found and the offset where these are known, or (type errors) what was found, the struct and field, the type of the place and the offset. An overflow text returned by Unmarshal names a number given in the input, and two overflow texts about integers are equal only if number and kind are.",
 "every error the library makes itself",
 "Texts contain arbitrary numbers, type names and keys.",
 ["internal/errors/error.go",E+"error.go",D+"compile.go"])
p("C80","How much Marshal writes",
 "The length of what Marshal returns for a value is the same in every call, whatever the order of maps, and is proportional to the value: no small value makes it write an unbounded amount.",
 "every value, every order of every map iteration",
 "Lengths under all orders, and the worst value of a given size, are not found by trying values.",
 ["marshal.go",E+"map.go",E+"map_reflect.go",E+"slice.go",E+"interface.go"])
p("C81","Unmarshal's stack use is bounded",
  "However deeply the input is nested, Unmarshal never has more than 20003 calls of its decoders inside of each other (the methods of user types not counted), so no input can exhaust the stack, whatever the destination type, and the limit on nesting is what ensures it. Marshal has no such bound: for every limit there is a value without cycles that needs more nested calls.",
  "all inputs, accepted destination types (also recursive ones with pointers) and destinations; for Marshal all limits",
  "Exhausting a Go stack ends the process and cannot be recovered in a test; and the bound must hold for every combination of types and inputs.",
  [D+"context.go: skipValue, skipArray, maxDecodeNestingDepth", D+"interface.go: decodeEmptyInterface", D+"struct.go: Decode", D+"slice.go: Decode", D+"array.go: Decode", D+"map.go: Decode", D+"ptr.go: Decode", E+"slice_reflect.go"])
p("C82","Marshal of a container is made of what Marshal returns for the parts",
  "If Marshal accepts a slice, array, map, struct or pointer, what it may return is exactly the array whose values are what Marshal may return for the elements, entries or written fields (for pointers: what it may return for the pointee), under the keys 0, 1, 2, ..., the map keys in some order, or the field keys in declaration order. Conversely, if every part can be marshalled, the container is accepted too or the error reports recursion.",
  "all container types and values, all memory contents, all orders of map iterations",
  "The claim relates the output for every container to the outputs of separate calls for its parts, at every nesting depth and in every map order.",
  [E+"compile.go: compileType", E+"slice.go: compileSlice", E+"array.go: compileArray", E+"map.go: compileMap", E+"struct.go: compileStruct", E+"ptr.go"])

p("C83","A struct is decoded field by field",
  "Unmarshal of an array or object into a struct succeeds exactly if every key is a string or null, every value whose key is no field's is well formed, and every field can take the values under its key one after the other, each as Unmarshal of that value alone would store it over the result before; the fields then hold these results, and ignored fields what they held.",
  "all struct types, all inputs up to the nesting limit, all previous contents of the struct",
  "Acceptance and result for every struct and input are related to separate calls for every field, with any number of repeated and unknown keys in any order.",
  [D+"struct.go: Decode", D+"struct.go: decodeKey", D+"wrapped_string.go", D+"compile.go: compileStruct"])
p("C84","The order of entries does not matter",
  "If entries with different keys change places in the arrays and objects of an input, at any depth, Unmarshal accepts the new input exactly if it accepts the old one, and what it stores looks the same to a program that takes elements and fields, looks up map keys, follows pointers and opens interfaces, in any combination. (For types without UnmarshalPHP methods, which see the text.)",
  "all pairs of inputs that differ in order, all types without methods of their own, all previous contents of the destination",
  "Every permutation of every array at every depth, for every destination type and previous contents.",
  [D+"struct.go: Decode", D+"map.go: Decode", D+"slice.go: Decode", D+"array.go: Decode", D+"interface.go: Decode"])
p("C85","No reader can tell in which order maps were written",
  "Two outputs of Marshal for the same value, which may differ because Go iterates over maps in any order, are accepted by the same destination types, and what Unmarshal stores looks the same for both, whatever the type of the destination is and whatever it held.",
  "all values without MarshalPHP methods, all iteration orders of all their maps, all destination types without UnmarshalPHP methods, all previous contents",
  "The iteration order is chosen by the runtime; the readers are arbitrary types of other programs.",
  [E+"map.go", E+"interface.go", D+"map.go: Decode", D+"struct.go: Decode", D+"interface.go: Decode"])
p("C86","Old programs can read the data of new ones",
  "If a destination type is changed by leaving out fields of structs anywhere inside it (and giving types and Go fields other names and fields another order), then all data with true counts, in particular everything Marshal writes, that Unmarshal accepts for the full type is accepted for the smaller one, and the smaller destination holds the same data under every key it has.",
  "all pairs of such types, also recursive ones, all data with true counts, all contents the destinations may hold before",
  "The types of two versions of a program and the data stored by one of them are not known to the tests of the library.",
  [D+"struct.go: Decode", D+"context.go: skipValue", D+"compile.go: compileStruct"])

p("C87","The names of Go types and fields do not matter to Marshal",
  "If a type T' has the structure of T, with other names for the types in it, other names for fields whose tags give the same keys, or integers with more bits, then every text Marshal may return for a value as a T it may return for the same value as a T'. In particular a declared type without MarshalPHP is written like the type it is declared from.",
  "all types, recursive ones included, and all renamings of them, all values and memories, all map iteration orders",
  "There are infinitely many types and ways to rename them; tests compare a few declared types with their expected text.",
  [E+"compile.go: compile, compileType", E+"bytes.go: bytesType", E+"struct.go: compileStruct", E+"ptr.go: compilePtr"])

p("C88","Data that is not understood is never accepted",
  "If, anywhere in the data (at the top, or as a key or value in arrays and objects at any depth, even in parts the destination ignores), something stands that is no null, bool, int, float, string, array or object, such as a reference (r: or R:), an enum case, a custom object or an escaped string, then Unmarshal does not succeed, whatever the destination. It returns an error if the destination is one where it cannot panic.",
  "all data, all places in it at any depth, everything that may stand there and follow it, all destination types and contents",
  "References can stand at infinitely many places, below every type; tests try none of them.",
  [D+"interface.go: interfaceDecoder.Decode", D+"context.go: skipValue", D+"compile.go: CompileToGetDecoder"])

p("C89","Unmarshal reads what PHP writes",
"Everything PHP's serialize() writes for a value made of null, booleans, 64-bit integers, floats that strconv can parse, strings, arrays and objects, nested at most 10000 deep, is accepted by an empty interface. The interface then holds exactly that data: arrays become map[any]any and objects map[string]any with the entries that were written and no others. Two such texts without floats and objects that give the same Go value are the same text. Lists can be read into []any, and objects and arrays with strings as keys into map[string]any, with the same elements.",
"all PHP data without references, enum cases and self-serializing classes; all earlier contents of the interface",
"Tests decode some PHP values; that there is no PHP value that is refused or read as another one is about all trees.",
[D+"interface.go:interfaceDecoder.decodeEmptyInterface",D+"map.go:mapDecoder.Decode",D+"int.go:intDecoder.Decode"])
p("C90","What was decoded can be marshalled safely",
"If Unmarshal accepts an input, whatever the input is, or several inputs one after the other into the same variable, then Marshal of the decoded value returns bytes or an error. It does not panic and does not run forever, wherever the value lies in memory. This is for destinations that were zero at first and whose types have no custom methods and no array type that contains itself. If the type can be encoded, the only errors are that something seems to lie inside itself, that an interface holds a PHP array, or that the string option stands over an interface with a string, array or object. Without interfaces in the type and with at most 1000 levels of slices, maps and pointers there is no error.",
"all inputs and sequences of inputs, also hostile ones; all destination types without methods; all layouts of the decoded value in memory; all map orders",
"The input may come from an attacker, so a test over well-meant inputs says nothing; that no accepted input leads to a crash or a loop is about all of them.",
["marshal.go: Marshal","unmarshal.go: Unmarshal",D+"interface.go: interfaceDecoder.Decode",E+"interface.go: compileInterface"])
p("C91","Data read into an empty interface can be written again unless an array is in it",
"If Unmarshal reads an input into an empty interface, Marshal of what the interface holds succeeds if and only if no PHP array is in it: null, booleans, numbers, strings and objects of these at any depth are accepted, and what is written is the same data with an array for each object, its property names as keys, in some order. With an array at any depth Marshal returns the error that a map has keys of type any; there is no other error and no panic.",
"all inputs that are accepted, all nestings of objects and arrays, all places in memory, all map orders",
"Where an array lies in the data, and how deep, is up to the sender; tests try a few places.",
["marshal.go: Marshal",D+"interface.go: decodeEmptyInterface",E+"interface.go: reflectInterfaceValue",E+"map_reflect.go"])
with open("/verif/properties.jsonl","w") as f:
    for x in P: f.write(json.dumps(x,ensure_ascii=False)+"\n")
print(len(P))
