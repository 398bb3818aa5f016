#!/usr/bin/env python3
"""Writes MANIFEST.json: one claim per property."""
import json, os
C = []
def claim(p, status, theorems, note=""):
    C.append({"property": p, "status": status, "theorems": theorems.split(), "note": note})

claim("C01", "proved", "C01_unmarshal_returns C01_accepted_type_returns")
claim("C02", "proved", "C02_never_reads_outside")
claim("C03", "proved", "C03_no_panic")
claim("C06", "proved", "C06_trailing_bytes_error")
claim("C07", "proved", "C07_truncated_rejected")
claim("C08", "proved", "C08_exact C08_unambiguous C08_deterministic")
claim("C09", "proved", "C09_signed_exact C09_ranges C09_texts C09_decimal")
claim("C10", "proved", "C10_unsigned_exact C10_ranges C10_texts C10_decimal")

claim("C04", "partial", "C04_slices_never_panic_refuted C04_slices_never_panic_partial",
      "The property is false of the code: an index of MaxInt64, or a declared length or index the allocator cannot provide, panics. Proved under the guard that the numbers written in the input are below MaxInt64 and allocatable; C63_panics_iff tells exactly which inputs panic.")
claim("C05", "partial", "C05_maps_never_panic_refuted C05_maps_never_panic_partial",
      "The property is false of the code for map[any]T (unhashable key) and map[*int]T (reflect panic). Proved for all other key types; C63_panics_iff tells exactly which inputs panic.")
claim("C11", "proved", "C11_strings_exact C11_byte_slices_exact")
claim("C12", "proved", "C12_raw_value_validated C12_skipped_value_validated C14_unknown_keys_ignored C20_array_elements",
      "Unmarshalers: both directions. Unknown keys: validated (C12_skipped_value_validated) and accepted if valid (C14). Out-of-range indexes: the Forall2 clause of C20.")
claim("C13", "proved", "C13_too_deep_rejected C13_any_up_to_limit C13_typed_below_limit")
claim("C14", "proved", "C14_unknown_keys_ignored")
claim("C15", "proved", "C15_field_order_irrelevant")
claim("C16", "proved", "C16_fields_after")
claim("C17", "proved", "C17_null")
claim("C18", "proved", "C18_any_closed C18_any_forgets")
claim("C19", "proved", "C19_slice_elements C19_keys_are_indexes")
claim("C20", "proved", "C20_array_elements C19_keys_are_indexes")
claim("C21", "partial", "C21_counts_enforced_refuted C21_counts_enforced_partial C21_count_ignored_any C21_count_ignored_seq C22_header_irrelevant C12_skipped_value_validated",
      "The property is false of the code: any, maps, structs, slices and arrays ignore the declared count (proved). Counts are enforced for raw and skipped values only (proved).")
claim("C22", "proved", "C22_header_irrelevant C22_class_irrelevant_any C22_objects_elsewhere_rejected")
claim("C23", "proved", "C23_unmarshaler_gets_raw_text C23_unmarshaler_error")
claim("C24", "partial", "C24_bad_target_error_refuted C24_bad_target_error_partial",
      "The property is false of the code for an untyped nil target, which panics on every non-empty input. Proved for non-pointers, nil pointers and empty input.")
claim("C25", "proved", "C25_unsupported_type_error C25_supported_type_compiles")
claim("C26", "partial", "C26_destination_compiles_refuted C26_destination_compiles_partial C26_all_others_refuted",
      "The property is false of the code for type S []S and type M map[string]M. Proved for every type inside which no type contains itself through slices, arrays, maps and pointers alone; every other type, unless it is rejected for another reason, makes Unmarshal recurse for ever (C26_all_others_refuted), so the guard is exact.")
claim("C27", "partial", "C27_failed_decode_refuted C27_failed_decode_partial",
      "The property is false of the code: trailing bytes are reported after the value has been stored. Proved: for scalars and any that is the only case.")

claim("C28", "proved", "C28_marshal_is_serialize C28_marshal_accepts C28_marshal_accepts_deep C28_marshal_nil")
claim("C29", "proved", "C29_length_prefix C28_marshal_is_serialize",
      "C29 spells out the bytes for the full int64 and uint64 ranges; C28 covers every position.")
claim("C30", "proved", "C30_output_determines_value C30_serialize_injective",
      "For values in which no custom Marshaler takes part; premise: strconv.AppendFloat writes neither nothing nor a semicolon.")
claim("C31", "proved", "C31_struct_fields C31_nil_pointer_field C31_plain_field")
claim("C33", "partial", "C33_no_false_recursion_refuted C33_deep_slice_refuted C33_first_field_refuted C33_no_false_recursion_partial C33_nothing_else_refused",
      "The property is false of the code: a slice inside an interface that starts at the address of one it lies in, a slice of concrete type inside an interface below 1000 nested containers, and a pointer to the first field of a struct it lies in below 1000 nested containers, are rejected although finite. Proved for all other finite values; C70_accepts_iff tells exactly which values are rejected. C33_nothing_else_refused: a value that has a meaning is never refused with another error, and causes no panic.")
claim("C34", "proved", "C34_history_does_not_matter")
claim("C40", "partial", "C40_source_compiles_refuted C40_source_compiles_partial C40_all_others_refuted C40_accepted_types",
      "The property is false of the code for types inside which an array type contains itself. Proved for all others; the types of the first sort, unless they are rejected for another reason, make Marshal recurse for ever (C40_all_others_refuted), so the guard is exact, and so is the set of accepted types.")

claim("C35", "proved", "C35_round_trip C35_survivor_unique C35_identity_refuted",
      "Floats: premise that strconv reads back what it wrote for the floats in the value. C35_identity_refuted shows the listed exceptions are real.")
claim("C37", "proved", "C37_order_irrelevant C37_same_value")
claim("C41", "partial", "C41_string_kind_refuted C41_interface_refuted C41_string_tag_partial",
      "The property is false of the code for string-tagged fields of kind string (Unmarshal rejects the type) and of interface kind (numbers come back as strings). Proved for booleans, numbers and pointers to them.")
claim("C42", "partial", "C42_specials C42_floats_partial C42_maxfloat32_refuted C42_float32_exact C42_float64_exact C42_double_rounding_refuted",
      "Special values: proved outright. Finite float64s: proved, given that strconv writes a number that rounds to the float and reads the float64 nearest to a number. Finite float32s: the property is false of the code, in exactly two cases: the float64 nearest to the text is above MaxFloat32 (MaxFloat32 itself, rejected), or half way between the float32, whose last bit is 1, and another one (7.038531e-26: silently changed); proved for all others.")
claim("C45", "partial", "C45_naming_refuted C45_naming_partial",
      "The property is false of the code for tags starting with '-,'. Proved for every other tag and every field name (without the string option, see C41).")

claim("C36", "partial", "C36_any C36_remarshal_refuted C36_remarshal_partial",
      "The first half is proved (C36_any). The second half is false of the code: arrays become map[any]any, which Marshal rejects (proved for every array). Everything else is re-marshalled byte for byte (floats: premise that strconv writes what it read).")
claim("C38", "partial", "C38_top_level C38_elements C38_first_error C38_field C38_pointer_field C38_struct_in_interface C38_honoured_partial C38_honoured_refuted",
      "The property is false of the code for non-struct Marshalers inside interfaces and for pointer-receiver Marshalers inside interfaces or behind pointer fields. Proved for every other position.")
claim("C46", "partial", "C46_inside_interface_refuted C46_inside_interface_partial C46_same_value",
      "The property is false of the code for arrays. Proved for types built from scalars, slices, maps, structs, interfaces and pointers, nesting fewer than 998 containers.")
claim("C48", "partial", "C48_any_total_refuted C48_any_total_partial",
      "The property is false of the code for uint64 values above MaxInt64. The exact set of values that can be decoded is proved.")

claim("C43","proved","C43_transparent C43_immutable C43_race_free C43_progress C43_decoder C43_encoder",
 "Goroutines are interleaved step by step over explicit map objects (Cache.v); any number of goroutines, calls and schedules. C43_lost_update is a concrete schedule.")
claim("C44","proved","C44_isolated C44_stable C44_apart C44_progress C44_marshal C44_marshal_stable C44_scripts",
 "Backing arrays, slices, capacities, the two sync.Pools and goroutines are explicit (Pool.v); what an encoder appends is an arbitrary script, so the theorems hold for every encoder. EncScript.v gives the script of every call of Marshal, and C44_marshal says such a call returns what Marshal returns when nothing else runs.")
claim("C32","partial","C32_container_cycles_partial C32_no_interfaces_partial C32_recursive_value_error_partial C32_recursive_value_never_encoded C32_recursive_value_refuted C32_recursive_struct_refuted",
 "False in general: pointers inside interfaces are followed without a check (refuted twice). Proved: Marshal returns if every cycle in memory passes through a slice or map, and on any memory if the type mentions no interface; a value that contains itself then gives an error, and is never encoded in any case. C70_returns and C70_diverges_iff tell exactly when Marshal returns.")
claim("C39","partial","C39_no_panic_partial C39_nil_is_null C39_nil_accepted C39_nil_marshaler_refuted C39_nil_interface_refuted",
 "False for Marshalers without receiver (refuted). Proved: no panic for every well-typed value without such Marshalers, whatever the heap; other nil pointers and interfaces are null. C70_panic_cause tells where every panic comes from.")
claim("C47", "partial", "C47_same_unmarshal C47_append_refuted C47_byte_slices_partial C47_handed_out_apart C47_data_not_shared",
  "The full statement is false (C47_append_refuted): decoded byte slices are pieces of one buffer and keep the rest of it as capacity, so a large enough append to one overwrites the next. Proved: writes, and appends of up to two bytes in all, never reach another decoded byte slice; nothing is shared with the caller's data.")
claim("C49","proved","C49_unshared C49_every_value C49_sharing_refuted",
 "Premise on UnmarshalPHP methods: they do in memory what x_unmarshal says on values. C49_every_value: every value is held by such a memory. C49_sharing_refuted: the condition on sharing is needed.")
claim("C50","proved","C50_only_destination C50_old_elements",
 "For every memory. Premise on UnmarshalPHP methods: they too write only to what they can reach from their receiver.")
claim("C51","proved","C51_any_destination",
 "For every memory. UnmarshalPHP methods return.")
claim("C52","proved","C52_isolated C52_unmarshal C52_kept C52_exclusive C52_pool_clean C52_no_waiting",
 "Contexts, buffers, the sync.Pool and goroutines are explicit (DecPool.v); what a decoder does with the bytes is an arbitrary program that may also write to its own bytes and call Unmarshal.")
claim("C53","partial","C53_same_unmarshal C53_same_outcome C53_any_count C53_linear_refuted C53_slice_refuted C53_requests C53_declared C53_linear_partial",
 "False: counts are trusted, so 15 bytes ask for a map of 10^9 entries (refuted). Proved: at most len(data) requests, each at most one past a number written in the input; their sum is at most what the input declares; linear if the counts are true and the type has no slices.")
claim("C54","partial","C54_list_cost C54_linear_refuted",
 "False: the sum is at least 1 + 2 + ... + m for every accepted list in order and every slice type; for every factor a list exceeding it is given.")
claim("C55","proved","C55_one_key C55_unmarshal C55_marshal C55_one_field",
 "Against TagSpec.v, which does not mention how tags are parsed. unicode.IsLetter/IsDigit outside ASCII are a parameter; reflect.StructTag.Get is not modelled (the model starts from the value of the php key).")
claim("C56","proved","C56_idempotent C56_nan_keys_refuted C56_interfaces_refuted",
 "For destinations as trees of values (C49 says when a memory is decoded as one). Outside the stated types it is false: witnesses for NaN keys in map[any]T and for interfaces with methods.")
claim("C57","proved","C57_acceptance C57_interfaces_refuted",
 "For destinations as trees of values. Outside the stated types it is false (witness).")
claim("C58","proved","C58_pointer C58_null",
 "Successful calls; pointers to pointers are not supported by the library (C25).")
claim("C59","partial","C59_offsets_refuted C59_offsets_partial C59_offsets_inside C59_trailing",
 "The full statement is false (C59_offsets_refuted): an object whose class name is said to be longer than the input gives an offset beyond the input, or a negative one. Proved: every other offset lies within the input; for trailing bytes the exact offset.")
claim("C60","partial","C60_in_place_partial C60_append_refuted",
 "True of methods that write to their argument (or to bytes before it); false of methods that append to it: the argument's capacity reaches to the end of the private buffer, so the append replaces what is decoded next.")
claim("C61","proved","C61_error C61_panic",
 "Places are those of an inductive specification (Context.v): behind pointers, in struct fields, map values, slice and array elements, and inside values read into an empty interface. Guards: fewer than 10000 '{' in the input, and no start of the rejected text is itself a value.")
claim("C62","partial","C62_place_partial C62_explained C62_same C62_uint_refuted C62_recursive_refuted C62_method_refuted",
 "The full statement is false: unsigned integers, keys of recursive structs, errors of methods (refuted). Proved: the error in full for every other place and every kind of data that does not fit; no error is about a place that the destination type does not have; otherwise Unmarshal is as in all other theorems.")
claim("C63","proved","C63_panics_iff C63_otherwise",
 "Exact: both directions, with the kind of panic and what is left in the destination. The allocator's limit is a parameter. Destinations are trees of values in which no interface with methods holds a nil pointer (Typing.v); panics of user methods are not modelled.")
claim("C64","partial","C64_messages_partial C64_near_partial C64_shown C64_character_refuted",
 "The full statement is false: messages about null, bool and trailing bytes name a character up to two bytes away (refuted). Proved: for every message, what is true of the input there; the named character is at most two bytes from the offset, except in skipped data nested too deeply, where the message always names 'a'. The texts of strconv's errors are a parameter.")
claim("C65","proved","C65_final C65_end_refuted",
 "Every error that is not `unfinished`, and every panic, stays the same whatever follows, with the same destination. The message alone does not tell: 'unexpected end of input' is also said of input that goes on (refuted).")
claim("C66","proved","C66_beginnings C66_end_refuted",
 "Every proper beginning of an accepted input is rejected with an error that more input can change; the message is not always 'unexpected end of input' (refuted).")
claim("C67","partial","C67_php_value_partial C67_refuted",
 "The full statement is false for unsigned numbers above MaxInt64 and for structs with two fields of one name (refuted). Proved for every value without them; what custom Marshalers write is not looked at.")
claim("C68","partial","C68_through_php_partial C68_round_trip_partial C68_refuted",
 "The full statement is false if a string key is a number to PHP (refuted: map[string]int, field named 1). Proved for every value without such keys that PHP has (C67) and no custom Marshaler wrote; that PHP prints the floats as they were is a premise.")
claim("C69","proved","C69_maps C69_accepts C69_not_merged",
 "Stated for map types without a custom Unmarshaler; C69_accepts (the converse) for keys that are strings, booleans or integers. C69_not_merged shows on a struct value that the old value does not shine through.")
claim("C70","proved","C70_error_cause C70_panic_cause C70_faulty_never_encoded C70_returns C70_accepts_iff C70_diverges_iff",
 "The places and what stops Marshal there are defined in Obstacle.v without reference to the encoder. C70_accepts_iff and C70_diverges_iff make C28, C32, C33 and C39 exact. Hypotheses: the value is well typed in memory, custom methods return, and no type inside the value is an array of itself through pointers (type A [2]*A), for which building the encoder does not end.",)
claim("C71","proved","C71_every_error C71_type_problem C71_overflow C71_overflow_int C71_overflow_uint",
 "C71_every_error goes through every kind of error; for syntax errors it refers to the claims of C64, for type errors and errors of methods see C60 and C62. Which of several unsupported types is named is not specified.")
claim("C72","partial","C72_same_meaning C72_same_bytes C72_accepted_partial C72_copies",
 "That nothing but the value matters is proved for the bytes written. Whether a value is accepted can depend on where it lies, because the recursion check compares addresses (C33): C72_accepted_partial says the only other outcome is the error \"recursive\". Assumes that custom methods do not look at addresses either (methods_alike). alike is coinductive, so it also speaks about cyclic values.")
claim("C73","partial","C73_refuted C73_same_bytes_partial C73_second_trip_partial",
 "False of the code for empty slices (a:0:{}, then N;), for pointers to nil slices and maps in omitempty fields, and for omitempty structs that are not empty only because of fields that are not written. Proved for all values without these (settled, Settled.v), under the guards of C35.")
claim("C74","proved","C74_wider C74_zero C74_same_type C74_fewer_fields_refuted",
 "wider and same_data are defined in Wider.v without reference to the decoder. Guard: slices of the wider element type can be allocated as long as the numbers in the input say (allocatable). C74_fewer_fields_refuted shows that the converse, a new type with fewer fields, is not safe: a value that no field takes is checked more strictly than one that a field takes.")
claim("C75","proved","C75_survives C75_same_bytes C75_exact C75_all_data_refuted",
 "mirrors and reordered are defined in Mirror.v. Guards: both sides support the type, arrays nest at most 1000 deep, and slices as long as the input can be allocated. C75_exact is the converse for types without methods: nothing else comes back as the same bytes. C75_all_data_refuted lists data that is read but changes on the way.")
claim("C76","proved","C76_counts C76_linear C76_any_bytes",
 "Counted are bytes read from the input (Steps.v), including the copy Unmarshal makes first. Growing slices are moved in memory without reading the input; C53 and C54 are about that. What an UnmarshalPHP method does with its argument is its own affair.")
claim("C77","partial","C77_float64 C77_zero C77_infinity C77_float32_twice C77_float32_partial C77_float32_underflow C77_float32_overflow C77_float32_refuted",
 "Given that strconv.ParseFloat rounds correctly to float64. Proved for float64. For float32 the property is false (7.038531e-26 is decoded to the second nearest, refuted); proved: what is stored is the float32 nearest to the float64 nearest to the number, and the exact condition for this to be the float32 nearest to the number. Numbers nearest to zero become zero, and numbers too large are refused, for both types.")
claim("C78","proved","C78_accepted_always C78_possible_bytes C78_two_entries_vary C78_one_entry_fixed",
 "Possible is what Go's specification allows: every iteration over a map visits the entries in any order (Go's present runtime may never choose some of them). C78_possible_bytes is exact: the bytes that some choice of orders gives are the serializations of the PHP values the argument represents, no fewer and no more.")
claim("C79","proved","C79_text_names C79_overflow_text C79_overflow_distinct C79_type_text",
 "names and facts are defined in Said.v. The names of types (reflect.Type.String), the numbers of fmt and the texts of strconv errors are parameters. Not named by the text: the struct of an embedded field (the message is a constant) and a NUL byte (WChar).")
claim("C80","partial","C80_same_length C80_exponential C80_linear_partial C80_linear_refuted",
 "The length is the same in every call. It is at most 8 times the weight (Weight.v) of the PHP value represented, but no factor bounds it by the memory the value occupies: n slices that hold the next one twice give 2^n bytes. The refutation needs that different allocations have different addresses.")
claim("C81","proved","C81_unmarshal_stack C81_marshal_unbounded",
  "With a limit of 20003 on the calls that are inside of each other, Unmarshal gives the same result as without a limit, for every input, accepted type and destination. Marshal has no such bound: C81_marshal_unbounded gives, for any limit, a value without cycles that needs more. Stack use of UnmarshalPHP methods is not counted.")

claim("C82","proved","C82_slice C82_array C82_map C82_struct C82_pointer C82_parts_suffice",
  "For an accepted container, what Marshal may return (over all map orders) is exactly the array put together from what Marshal may return for the elements, entries or fields. Element and field types may be interfaces; pointers: to non-interface types without MarshalPHP in either method set (C82_pointer_method shows why). Conversely texts of the parts put together are what Marshal may return, unless it reports recursion.")

claim("C83","proved","C83_struct_exact",
  "Exact for arrays and objects nested less than 10000 deep: acceptance and result, with repeated keys, unknown keys, ignored fields and the string option.")
claim("C84","proved","C84_order C84_accepted C84_looks C84_repeats_refuted C84_methods_refuted",
  "Entries with different keys, at any depth, for destinations without UnmarshalPHP methods. That the order of repeated keys matters, and that methods see it, is shown by the two refuted forms. Assumes that a shorter slice fits in memory whenever a longer one does.")
claim("C85","proved","C85_any_reader C85_accepted",
  "For values without MarshalPHP methods and readers without UnmarshalPHP methods. The map keys in memory are assumed different, which the Go runtime guarantees.")
claim("C86","proved","C86_fewer C86_zero C86_marshalled C86_new_to_old",
  "The counts in the data must be true, as they are in everything Marshal and PHP write; without this the property is false (C74_fewer_fields_refuted).")

claim("C87","partial","C87_renamed C87_same_texts C87_declared C87_named_bytes_refuted",
      "Every text Marshal may return for a value of a type it may return for it as a type of the same structure under other names (recursive types included), with other field names whose tags give the same keys, or with wider integers; a declared type without MarshalPHP is written as the type it is declared from. Partial because it is false of []byte: type Raw []byte is written as an array of numbers.")
claim("C88","proved","C88_rejected C88_php_only C88_error",
      "Whatever the destination type and whatever follows, data in which something else than a null, bool, int, float, string, array or object stands where a value or key is expected is not accepted; references (r:, R:), enum cases (E:), custom objects (C:) and escaped strings (S:) are such. It is an error wherever C03 excludes panics.")
claim("C89","proved","C89_reads_php C89_nothing_else C89_lossless C89_lists C89_records",
 "PhpData.v specifies the data and what the interface holds without the decoder. Lossless for data without floats and objects, because the names of classes and the digits of floats are not kept.")
claim("C90","proved","C90_returns C90_no_panic C90_not_endless C90_well_typed C90_errors C90_accepted",
 "For a destination that was zero at first, of a type in which no type has methods, and no array type that contains itself (C40).")
claim("C91","proved","C91_accepted_iff C91_refused C91_written",
 "Given that no two maps in memory have the same address. no_arrays (Props45.v) is what an empty interface holds when no PHP array is in the data; written (Props45.v) is the PHP data it stands for.")
here = os.path.dirname(os.path.abspath(__file__))
C.sort(key=lambda c: c["property"])
with open(os.path.join(here, "..", "MANIFEST.json"), "w") as f:
    f.write('{"claims": [\n' + ",\n".join(json.dumps(c) for c in C) + "\n]}\n")
