# go-phpserialize in Rocq: design

* `properties.jsonl`: the properties, in terms of the API.
* `rocq/theories/Props1.v` … `Props45.v`: one theorem (or a few) per property, each
  followed by `Print Assumptions` and by an example that meets its hypotheses.
* `MANIFEST.json`: property → theorems and status.  `ASSUMPTIONS.txt`: output of
  `Print Assumptions` for every theorem named there (`tools/assumptions.sh`).
* `rocq/theories/RepoTests.v`: the repository's tests, run on the model (§1).
* `seeded/LOG.jsonl`: wrong programs the theorems were tested against.

Files are in three layers: **model** (what the code does; no proofs), **specification**
(what the properties mean; no reference to the decoder's or encoder's internals)
and **proofs**.

## 1. Model

| Go | model | remarks |
|---|---|---|
| Go integers, slices of bytes, errors, panics | `Base.v` | int64 wrap-around and bounds checks explicit; results are `ROk`, `RErr`, `RPanic`, `RFuel` |
| types, declared types, values | `GoType.v`, `GoTypes.v` | declared types are references into an environment, so recursive types are first class |
| what is called but not defined here | record `Ext` in `GoTypes.v` | float formatting and parsing, `unicode.IsLetter/IsDigit` beyond ASCII, user methods, the allocator's limit, addresses |
| `strconv` integer and bool functions | `Strconv.v` | written out from the standard library |
| `internal/runtime/struct_field.go` | `Tags.v` | all of it |
| `internal/decoder/context.go` (scanning) | `Scan.v` | every function |
| `internal/decoder/{int,uint,float,bool,string,bytes,slice,array,map,struct,ptr,interface,unmarshal_php,wrapped_string,invalid,type,unsafe}.go` | `Decode.v` | every `Decode` method; the destination is a value (a tree) |
| same, type errors in full | `NameDecode.v` | every decoder that makes an UnmarshalTypeError or calls a method again, with Value, Type, Struct and Field, what `annotateError` does to a method's error, and the message; Decode.v keeps only kind and offset |
| same, destination in memory | `MemDecode.v` | every `Decode` method again, with locations, sharing and cycles; `method` is an arbitrary memory-changing UnmarshalPHP |
| same, input buffer as memory | `Alias.v` | which pieces of the private buffer end up in `[]byte` values |
| same, input buffer as state | `BufDecode.v` | every decoder that can call UnmarshalPHP again, returning the buffer as the methods leave it |
| same, requests for room | `Cost.v` | `MakeMapWithSize` hints and `reflect.MakeSlice`/grow lengths, in order; allocations whose size does not come from a number in the input are not recorded |
| same, bytes read | `Steps.v` | every `buf[i]` (one byte) and `buf[i:j]` (j - i bytes) of the scanner, the decoders and `validateEndBuf`, and the copy made by `unmarshal`; the input is reachable through these two operations only. Not counted: what UnmarshalPHP methods read of their argument, and the moving of slice elements when a slice grows (C54) |
| `internal/errors/error.go`, `internal/encoder/error.go` | `Message.v` | the text of every error the library makes; the texts of strconv and the names of types are parameters |
| same, nested calls | `Stack.v` | the decoders with a limit on calls inside of each other: `Decode` methods, `skipValue`, `decodeEmptyInterface` (each a bounded number of Go frames). Not counted: what UnmarshalPHP methods call; the compilation of the type, which does not depend on the input |
| `internal/decoder/compile.go`, `unmarshal.go` | `Unmarshal.v` | compilation of the destination type, end-of-input check |
| `internal/decoder/context.go:10-33`, `unmarshal.go:37-51` | `DecPool.v` | context pool, goroutines, nested calls |
| `internal/encoder/compile.go` and the compile functions of the other files | `EncCompile.v` | success, failure, divergence of compilation |
| `internal/encoder/*.go`, `marshal.go` | `Encode.v`, `Memory.v` | every encoder; values live in a heap, so sharing, cycles and first-field addresses are real |
| `internal/encoder/compile_cache.go`, `internal/decoder/compile.go:12-46` | `Cache.v`, `CacheEnc.v`, `CacheRun.v` | copy-on-write maps behind an atomic pointer, goroutines |
| `internal/encoder/{buffer,context,marshal}.go`, buffers in `struct.go`, `float.go` | `Pool.v` | backing arrays, capacities, two `sync.Pool`s, goroutines |
| the buffer operations of every encoder | `EncScript.v` | `Encode.v` again, recording appends, pooled struct buffers, the small buffer and method calls in the order of the code; this links `Pool.v` to `Encode.v` |
| Go slices seen by the caller | `Slices.v` | writes and `append` within capacity |

Every definition cites the lines it models and says where it simplifies.

Recursion is fuelled.  For decoding, the fuel in `decode` is a function of the
input and proved sufficient (C01, C51).  For encoding and for compiling types the
fuel is a parameter: `Api.v` and `EncApi.v` define outcomes as "for some fuel", and
"for every fuel `RFuel`" is what non-termination means.

### Is it a model of this code?

`RepoTests.v` (written by `tools/repotests.py`) runs the model on the repository's own
tests: 243 examples for Unmarshal, the scanners behind it and struct tags, and 364 for
Marshal, with the results that the tests expect.  All agree, and none led to a change of
the model.  These are tests of the model, not proofs, and no property rests on them.
Where a test checks part of a result only, the example has all of it.  Some of the
floats are others than in the tests (3.5 and 4.5 for 1.5, 2.5, 3 and 4).  Left out are
benchmarks, `TestUnquoteBytes` (see below), `TestErrorMessages` (no message is empty) and
the fuzz target, which is what the theorems are about.

### Not modelled

* running out of memory below the allocator's limit, and running out of stack (see C81; infinite
  recursion is divergence);
* platforms where `int` is not 64 bits;
* `MaxMapSize`, `MaxSliceSize` (written, never read) and `unquoteBytes` behind its
  guard (proved never reached, see C23);
* map iteration order is an oracle `ord`, constrained only to permute
  (`fair_order`); hash seeds are not modelled;
* the Go memory model below sequential consistency.  The interleaving models
  (`Cache.v`, `Pool.v`, `DecPool.v`) are sequentially consistent; this is sound for
  race-free programs, and the absence of races is itself proved there
  (C43_race_free, C44_apart and the ownership invariant, C52_exclusive), given that
  `atomic.Pointer` and `sync.Pool` synchronize as documented;
* goroutines that change the value being marshalled, or the destination, while a call
  is running (a race in the caller);
* user `MarshalPHP` methods that change memory; `MarshalPHP` may return anything, an
  error, panic or not return;
* `Decode.v` and `MemDecode.v` treat the input as immutable during the call; that this
  is right for methods that write only to the bytes they are given, and wrong for
  methods that append to them, is C60 (`BufDecode.v`);
* in an interface with methods, a value (not a pointer) whose `UnmarshalPHP` has a value
  receiver: `dec_iface` treats it as not implementing Unmarshaler; unnamed struct types
  that get methods by embedding (give them a name in the model);
* `bench/`, tests, the constructors of `internal/errors` that are not called.

## 2. Specification

| file | content |
|---|---|
| `Grammar.v` | syntax trees `lval` of serialized values as written, their `text`, `wf` and `strict` |
| `Denote.v` | `store d T p v w`: storing `p` into a destination of type `T` holding `v` leaves `w`.  No cursors, no buffers |
| `Typing.v`, `Values.v` | well-typed values and memories; shapes of memory for termination |
| `Elements.v` | last-entry-wins lookup for structs, slices, arrays |
| `Again.v` | destination types whose decoding does not look at what they hold |
| `Offsets.v` | the offset an error carries; where a class name that does not fit would end |
| `Context.v` | a place inside an input: what comes before it, what is read there, and what the whole destination holds when the decoder stops there; an error moved to a later offset |
| `Panics.v` | the data on which a decoder panics at the place where it is, by kind of destination; what it leaves |
| `Says.v` | what is true of an input when a syntax error says something about it; errors that more input can change |
| `Names.v` | a place inside an input together with the struct types and fields around it; data that does not fit; what the error says about it |
| `Php.v` | PHP values and PHP's `serialize()` |
| `PhpKeys.v` | PHP's array keys, the values PHP has, what PHP writes after reading |
| `MapSpec.v` | what a Go map holds under a key |
| `Reorder.v` | inputs that differ in the order of entries; values that look the same; no methods take part (C84) |
| `Obstacle.v` | the places Marshal comes to in a value, the types and places that stop it, and what the error says of them |
| `TypeFault.v` | the error for a type that is not supported; a number in the input for a number kind in the destination; overflow |
| `Alike.v` | values that differ only in where they lie in memory |
| `Settled.v` | values without empty slices and the like, which a round trip leaves as they are for the next Marshal |
| `Wider.v` | types that are compatible with an older one; values of two such types that hold the same data |
| `Fewer.v` | types without some of the fields of another; data whose counts are true |
| `Rename.v` | types of the same structure under other names |
| `Foreign.v` | data with something in it that is none of the sorts of values Unmarshal knows; the formats only PHP knows |
| `PhpData.v` | what serialize() writes for values without references; what an empty interface with the same data holds |
| `Levels.v` | how many slices, maps and pointers of a value lie one inside the other |
| `Mirror.v` | PHP data that fits a Go type, and the Go value that says the same; PHP data up to the order of arrays kept in maps |
| `Repr.v` | which PHP value a Go value in memory represents (inductive: only values that unfold finitely represent anything); method sets and `[]byte` defined apart from the encoder's |
| `RoundTrip.v`, `AnyTrip.v`, `Positions.v` | what survives Marshal + Unmarshal; values held in `any`; positions of Marshalers |
| `MemSpec.v` | what a memory holds, what can be reached, which memory a call may change |
| `CostSpec.v` | the numbers an input declares |
| `FloatText.v` | the number a text denotes, the float nearest to a number |
| `Said.v` | what the text of an error has to name |
| `Weight.v` | how much there is to write for a PHP value |
| `TagSpec.v` | what a struct tag says: words, UTF-8, valid names.  (`Denote.v` and `Repr.v` use `tag_of`; C55 says independently what it computes) |
| `alone`, `own` in `DecPool.v`; `results` in `Pool.v`; `Compiles` in `Cache.v` | the sequential meaning of calls, for the concurrency theorems |

## 3. Trusted base

1. Coq 8.16.1's kernel (`coqc`, `vm_compute`).
2. No axioms.  `Print Assumptions` answers "Closed under the global context" for every
   theorem named in `MANIFEST.json`; `ASSUMPTIONS.txt` lists them one by one.
   (`vcheck` also lists seven constants of `Coq.ssr.ssrunder`: the parameters of a
   module type in a library file that is loaded with `Lia`; no theorem uses them.)
   No functors, module types, `Admitted`, plugins or disabled checks.
3. The reading of the Go source into the model.
4. Go's semantics of `reflect`, maps, slices, interfaces and addresses as written in
   `GoTypes.v`, `Memory.v`, `MemDecode.v`.
5. Premises visible in the theorems, chiefly:
   * `small data`: the input is shorter than 2^62 bytes (no Go slice is longer);
   * float round trips assume of `strconv` that it reads back what it wrote, for the
     floats in the value; C42 derives this from correct rounding (`FloatText.v`) and
     says for which float32s it fails; C30 that `AppendFloat` writes neither nothing nor `;`;
   * `methods_return`, `methods_do_not_panic` (Marshal), `methods_as`, `modest`
     (Unmarshal into memory): what user methods may do;
   * `x_addr` is arbitrary: two places may have the same address unless a premise
     says they are apart.

## 4. How the proofs go

1. *Scanning* (`NumFacts`, `ScanFacts`, `SkipFacts`): each scanner succeeds iff the
   rest of the input starts with the text of such a value, otherwise it is an error
   and never a panic.
2. *Decoding* (`Sound`, `SoundT`, `Complete`): a successful decode has consumed
   `text p` for some `p` with `store … p v w`, and conversely.  `TextFacts`: texts are
   prefix-free.  `Safe`: which panics are possible for which types.  `CompileFacts`:
   compilation of types.  Everything about Unmarshal follows (`UnmFacts`,
   `StoreFacts`, `StructFacts`, `SeqFacts`).
3. *Encoding* (`EncSound`, `EncComplete`): whatever is written is `serialize` of a PHP
   value the argument represents, and conversely.  `EncFacts`: the context is
   restored.  `EncTerm`, `EncCompileFacts`: compilation.  `Jobs`, `JobFacts`,
   `HaltFacts`: termination from the call graph, via the recursion check.
   `CalmFacts`: panics.  `CycleFacts`: cyclic values represent nothing.
4. *Round trips* (`RoundTripFacts`, `AnyTripFacts`): composition of 2 and 3.
5. *Concurrency* (`CacheFacts`, `CacheEncFacts`, `PoolFacts`, `DecPoolFacts`):
   invariants over all reachable states of a transition system.
6. *Memory* (`MemFacts`, `MemRefine`, `MemFrame`, `MemTerm`, `MemApi`; `AliasFacts`,
   `ShareFacts`, `SliceFacts`): refinement of the value-level decoder when nothing is
   shared, a frame theorem and termination for every memory; disjointness of the
   pieces of the input buffer that are handed out.

7. *Requests* (`CostFacts`, `CostBound`): the recording decoder forgets to the decoder of
   2; what it has asked for is bounded along the same induction.

A property that the code violates is proved false (`…_refuted`: a witness evaluated in
the model) and the true part is proved with its guard (`…_partial`).

## 5. Per property

`=`: proved as stated.  `~`: false of the code as stated; refuted, and the rest proved.

| id | | how |
|---|---|---|
| C01 returns | = | fuel of `decode` suffices (`Sound`) |
| C02 stays in bounds | = | no `PIndex` (`Sound`) |
| C03 no panic | = | `Safe`, guard on all types reachable |
| C04 slices never panic | ~ | index `MaxInt64` wraps; lengths beyond the allocator |
| C05 maps never panic | ~ | `map[any]T` (unhashable key), `map[*int]T` (reflect) |
| C06, C07 framing | = | soundness + prefix-freeness |
| C08 exactness | = | soundness + completeness against `store` |
| C09, C10 integers | = | `NumFacts`, through C08; `Props14` ties the texts to the standard library's decimal notation |
| C11 strings | = | C08 |
| C12 skipped values validated | = | `SkipFacts` |
| C13 nesting limit | = | `SeqFacts` |
| C14–C16 structs | = | induction over entries (`StructFacts`) |
| C17 null, C18 any | = | `StructFacts`, `SeqFacts` |
| C19, C20 slices, arrays | = | against last-wins lookup (`SeqFacts`) |
| C21 declared counts | ~ | ignored by every typed destination and any |
| C22 headers | = | `SeqFacts` |
| C23 UnmarshalPHP gets the raw text | = | `StoreFacts` |
| C24 bad targets | ~ | untyped nil panics |
| C25 unsupported types | = | `CompileFacts` |
| C26 destination types compile | ~ | `type S []S` recurses for ever; the guard (no type inside contains itself through slices, arrays, maps and pointers alone) is exact: every other type diverges or is rejected for another reason |
| C27 failed decode leaves scalars alone | ~ | trailing bytes are noticed after the store |
| C28, C29 Marshal writes serialize() | = | `EncSound`, `EncComplete`, `NumEnc` |
| C30 output determines value | = | `PhpFacts` |
| C31 struct fields | = | `MarshalFacts` |
| C32 recursion ends in an error | ~ | pointers inside interfaces are not checked |
| C33 no false recursion | ~ | three kinds of finite values are rejected |
| C34 histories | = | context restored (`EncFacts`) |
| C35 typed round trip | = | `RoundTripFacts` |
| C36 any round trip | ~ | `map[any]any` cannot be marshalled again |
| C37 map order | = | `ReprFacts` |
| C38 Marshalers honoured | ~ | some are ignored inside interfaces and behind pointer fields |
| C39 nil | ~ | nil Marshalers panic |
| C40 source types compile | ~ | an array type that contains itself recurses for ever; the guard is exact, as for C26 |
| C41 `,string` | ~ | string and interface fields |
| C42 floats | ~ | float32s whose text, as a float64, is beyond `MaxFloat32` or half way to another float32; `FloatFacts`: that these are all, given that strconv rounds correctly |
| C43 caches | = | invariant (`CacheFacts`) |
| C44 encoder pools | = | ownership invariant (`PoolFacts`); scripts of Marshal calls (`EncScriptFacts`) |
| C45 field names | ~ | tags starting with `-,` |
| C46 inside interfaces | ~ | arrays |
| C47 byte slices | ~ | appends reach into the next one |
| C48 any decodes everything | ~ | uint64 above MaxInt64 |
| C49 unshared destinations | = | refinement (`MemRefine`) |
| C50 writes only its destination | = | frame (`MemFrame`) |
| C51 ends on every memory | = | `MemTerm` |
| C52 Unmarshal calls isolated | = | ownership invariant (`DecPoolFacts`) |
| C53 memory linear in the input | ~ | counts are trusted: 15 bytes ask for 10^9 entries; bounded by the numbers written (`CostBound`) |
| C54 lists cost linear memory | ~ | slices grow by one element at a time: quadratic |
| C55 struct tags | = | `TagFacts`: splitting, UTF-8 decoding against RFC 3629 encoding |
| C56 decoding twice is decoding once | = | chains of stores into one place are idempotent (`IdemFacts`); false with NaN keys or interfaces with methods |
| C57 acceptance ignores the old value | = | `IdemFacts` |
| C58 pointers are transparent | = | from `store` |
| C59 error offsets | ~ | class names longer than the input (`OffsetFacts`) |
| C60 methods writing to their argument | ~ | decoding at a cursor depends only on what follows (`LocalFacts`, `BufFacts`); an append to the argument overwrites what follows |
| C61 errors are compositional | = | decoding commutes with moving the input (`ShiftFacts`), by induction on the decoder's recursion; the decoder reaches the place, by induction on the context (`ContextFacts`) |
| C62 what type errors say | ~ | the two decoders agree up to details (`NameFacts`); the decoder reaches the place with its names (`NamePlace`), by induction on the site; no error has other details (`NameSound`), by induction on the decoder's recursion |
| C63 the inputs that make Unmarshal panic | = | every panic of the decoder is at such a place, by induction on its recursion; every such place is reached and panics, by induction on the context (`PanicFacts`) |
| C64 syntax errors tell the truth | ~ | a postcondition on every error, by induction on the decoder's recursion (`SayFacts`) |
| C65 errors in the middle are final | = | a relation between the runs on an input and on a longer one, by induction on the decoder's recursion (`GrowFacts`) |
| C66 truncated data | = | from C65 and C59_trailing |
| C67 PHP has what Marshal writes | ~ | by induction on what a value represents (`PhpKeyFacts`); two refuted cases |
| C68 through PHP and back | ~ | by induction on PHP values, from C67 and C35; refuted for numeric string keys |
| C69 Maps hold the last value of every key | = | induction on the entries (`MapFacts`): setting a key answers that key and no other |
| C70 Which values Marshal accepts, what its errors are about | = | `ObstacleFacts`: one induction on the recursion bound follows every error and panic to its place; represented values have no such place and are well-founded; `ObstacleEnds`: induction on the well-foundedness of the paths |
| C71 Errors about types and overflow tell the truth | = | `TruthFacts`: every error of the decoder for a supported type is a syntax or type error, a method's, or names a number just read; every error of compilation is about the type at hand (inductions on the recursion bounds) |
| C72 nothing but the value matters | ~ | `AlikeFacts`: values that are alike represent the same (induction on the meaning of the one); `MeaningFacts`: where there is a meaning only the recursion check can stop Marshal |
| C73 writing again what was read | ~ | `SettleFacts`: what survives of a settled value represents the same and survives as itself; three exceptions refuted |
| C74 data of old programs | = | `WiderFacts`: induction on the length of the text, generalized over related types, destinations and depth; related destinations stay related |
| C75 PHP data survives Go | = | `MirrorFacts`: three inductions over `mirrors` (Unmarshal stores the value; Marshal has a representation within its limits; every representation is a reordering); `MirrorExact`: induction over `repr` for the converse; `QuietFacts`: what was decoded has nothing with methods in its interfaces |
| C76 Linear reading | = | `StepsFacts`: dropping the counts gives Decode.v; `StepsBound`: an amortised bound, four reads per byte passed over, by induction over fuel and loops, for any functions in place of `buf[i]` and `buf[i:j]` |
| C77 Nearest floats | ~ | float32: the text is rounded to float64 first; `FloatFacts` (`nearest32`, `twice_rounded`) against `FloatText.v`, which does not use SpecFloat's rounding |
| C78 possible bytes | = | `OrderFacts` (`enc_reaches`: for each meaning there are orders that lead to it), `CarryFacts` (`repr_carry`) |
| C79 error texts | = | `Said.v`; by the form of the error, with C71 |
| C80 output size | ~ | `psame_length` (values that differ in order have texts of one length), induction on the PHP value; witness: `doubling n` |
| C81 stack | = | relation "equal, or the first reached its limit" between runs with different limits; containers at depth 10000 fail before their elements; a pointer adds one call. Marshal: `doubling n` needs more than n calls |
| C82 parts | = | meanings are composed of meanings (`Repr`); what is represented at some depth is represented on its own (`repr_sim` with a smaller set of open addresses and a smaller depth), so Marshal returns it for the part; the converse by C78 and C33_nothing_else_refused |
| C83 struct by fields | = | induction over the entries in both directions; one level of nesting is one call (`decodes_inner`, `inner_decodes`) |
| C84 order of entries | = | simulation up to `looks_same` (`Reorder.v`), by induction over the reordering; swaps of neighbours commute in maps, slices, arrays and structs |
| C85 order of maps | = | two representations of one value are reorderings of each other (induction over `repr`), then C84 |
| C86 fewer fields | = | simulation of `store` into the full type by `store` into the smaller one; data of fields that are gone is skipped, which true counts and the depth limit allow |
| C87 renaming | partial: false of types declared from []byte | induction on `repr`: what a value represents depends on the structure of its type only; then C78's completeness for some order of map iterations |
| C88 foreign data | = | by C08 accepted data is the text of a well formed tree; such texts are prefix-free (text_inj), so a tree with the same beginning would have to have a value at the foreign place |
| C89 PHP data is read | = | induction on the length of the text: every entry is read into the interface, keys that differ are kept as different entries; uniqueness by C08's determinism; the converse by induction on the tree |
| C90 decoded values can be marshalled | = | `SoundValue`: induction over what Unmarshal stores shows that interfaces only hold the six built-in kinds; induction over the tree shows that Marshal's descent ends; then C70. `LevelFacts`: the number of containers entered plus the levels left never grows |
| C91 data in interfaces is written again | = | invariant of Marshal's descent: the addresses recorded are those of maps that contain the place, and no map of a finite value contains itself; for the converse induction over what Unmarshal read, then C70; what is written by induction over the value, then C28 |

None of the properties was left out as inexpressible.

## 6. What the model shows about the code

Deviations found while proving (each is a theorem or an example in the named file):

* `Unmarshal(data, nil)` panics; `a:1:{i:9223372036854775807;i:1;}` and
  `a:9223372036854775807:{}` panic for slices; `map[any]T` and `map[*int]T` panic
  (Props2, Props3).
* Declared element counts are not enforced, except in skipped and raw values (C21).
* A value that fails only because of trailing bytes has been stored (C27).
* `type S []S` makes Unmarshal recurse for ever, `type A [1][]A` Marshal (C26, C40).
* Marshal does not return for cycles through pointers inside interfaces (C32).
* Marshal reports recursion for some finite values: a slice inside an interface that
  starts where an enclosing one does; below 1000 containers, a pointer to the first
  field of an enclosing struct (C33).
* Non-struct Marshalers inside interfaces, and pointer-receiver Marshalers inside
  interfaces and behind pointer fields, are ignored (C38); nil Marshalers panic (C39).
* Arrays inside interfaces are rejected (C46); `map[any]any`, which Unmarshal makes for
  `any`, is rejected by Marshal (C36); uint64 above MaxInt64 cannot be decoded into any
  (C48); `MaxFloat32` does not survive, and 11420669 · 2^-107 (text 7.038531e-26) comes
  back as the next float32, because a text is rounded to float64 first (C42).
* `,string` on string fields is written but not accepted back (C41); tags `-,…` are
  treated differently by the two sides (C45).
* Struct destinations reject integer keys; `i:-0;` is accepted for int, rejected for
  uint; an embedded pointer to struct, and two fields of the same name, are accepted by
  Marshal only; uintptr by Unmarshal only.
* Decoded `[]byte` values keep the rest of the input as spare capacity, so an append
  to one can overwrite another (C47).  UnmarshalPHP is given the private buffer itself,
  and a method that appends to its argument changes what is decoded next (C60).
* The type error for an unsigned integer never says which field it is about; one for a key
  of a struct inside another struct of its type names the field the outer one is in; a
  type error returned by an UnmarshalPHP method has its Struct and Field replaced, unless
  the method was found behind an interface (C62).
* "unexpected end of input" is also the message for a bool, slice, array or class name
  that begins with a wrong byte; the character named in messages about null, bool and
  trailing bytes is not the one at the offset (C64, C65).
* A string key such as "1" is an integer to PHP; sent through PHP, `map[string]T` and
  structs with such field names cannot be decoded again (C68).  Two fields of one name
  make PHP drop one of them (C67).
* An empty slice is written `a:0:{}`, read back as nil and then written `N;`: writing again
  what was read does not give the same bytes (C73).
* A field that is removed from a struct makes data unreadable that was readable before: the
  element counts inside a value are checked only if no field takes it (C74).
* If pointers of the destination are aliased, variables the input does not name change
  through the alias (C49_sharing_refuted).
* `a:1000000000:{}` makes Unmarshal ask for a map or slice with room for 10^9 entries
  before it looks at the entries (C53).
* An honest list of m elements is decoded into a slice by allocating slices of 1, 2,
  …, m elements: m(m+1)/2 elements in all (C54).
* Shared slices, maps and pointers are written out at every use: n slices of two elements,
  both of them the next slice, make Marshal write 2^n values (C80).
* Unmarshal limits nesting to 10000; Marshal has no limit, so a deep enough value without any
  cycle exhausts the stack, which in Go ends the process (C81_marshal_unbounded).
* `[]byte` is written as a string, `type Raw []byte` as an array of numbers (C87_named_bytes_refuted).
