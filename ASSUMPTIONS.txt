C01_unmarshal_returns: Closed under the global context 
C01_accepted_type_returns: Closed under the global context 
C02_never_reads_outside: Closed under the global context 
C03_no_panic: Closed under the global context 
C04_slices_never_panic_refuted: Closed under the global context 
C04_slices_never_panic_partial: Closed under the global context 
C05_maps_never_panic_refuted: Closed under the global context 
C05_maps_never_panic_partial: Closed under the global context 
C06_trailing_bytes_error: Closed under the global context 
C07_truncated_rejected: Closed under the global context 
C08_exact: Closed under the global context 
C08_unambiguous: Closed under the global context 
C08_deterministic: Closed under the global context 
C09_signed_exact: Closed under the global context 
C09_ranges: Closed under the global context 
C09_texts: Closed under the global context 
C09_decimal: Closed under the global context 
C10_unsigned_exact: Closed under the global context 
C10_ranges: Closed under the global context 
C10_texts: Closed under the global context 
C10_decimal: Closed under the global context 
C11_strings_exact: Closed under the global context 
C11_byte_slices_exact: Closed under the global context 
C12_raw_value_validated: Closed under the global context 
C12_skipped_value_validated: Closed under the global context 
C14_unknown_keys_ignored: Closed under the global context 
C20_array_elements: Closed under the global context 
C13_too_deep_rejected: Closed under the global context 
C13_any_up_to_limit: Closed under the global context 
C13_typed_below_limit: Closed under the global context 
C15_field_order_irrelevant: Closed under the global context 
C16_fields_after: Closed under the global context 
C17_null: Closed under the global context 
C18_any_closed: Closed under the global context 
C18_any_forgets: Closed under the global context 
C19_slice_elements: Closed under the global context 
C19_keys_are_indexes: Closed under the global context 
C21_counts_enforced_refuted: Closed under the global context 
C21_counts_enforced_partial: Closed under the global context 
C21_count_ignored_any: Closed under the global context 
C21_count_ignored_seq: Closed under the global context 
C22_header_irrelevant: Closed under the global context 
C22_class_irrelevant_any: Closed under the global context 
C22_objects_elsewhere_rejected: Closed under the global context 
C23_unmarshaler_gets_raw_text: Closed under the global context 
C23_unmarshaler_error: Closed under the global context 
C24_bad_target_error_refuted: Closed under the global context 
C24_bad_target_error_partial: Closed under the global context 
C25_unsupported_type_error: Closed under the global context 
C25_supported_type_compiles: Closed under the global context 
C26_destination_compiles_refuted: Closed under the global context 
C26_destination_compiles_partial: Closed under the global context 
C26_all_others_refuted: Closed under the global context 
C27_failed_decode_refuted: Closed under the global context 
C27_failed_decode_partial: Closed under the global context 
C28_marshal_is_serialize: Closed under the global context 
C28_marshal_accepts: Closed under the global context 
C28_marshal_accepts_deep: Closed under the global context 
C28_marshal_nil: Closed under the global context 
C29_length_prefix: Closed under the global context 
C30_output_determines_value: Closed under the global context 
C30_serialize_injective: Closed under the global context 
C31_struct_fields: Closed under the global context 
C31_nil_pointer_field: Closed under the global context 
C31_plain_field: Closed under the global context 
C32_container_cycles_partial: Closed under the global context 
C32_no_interfaces_partial: Closed under the global context 
C32_recursive_value_error_partial: Closed under the global context 
C32_recursive_value_never_encoded: Closed under the global context 
C32_recursive_value_refuted: Closed under the global context 
C32_recursive_struct_refuted: Closed under the global context 
C33_no_false_recursion_refuted: Closed under the global context 
C33_deep_slice_refuted: Closed under the global context 
C33_first_field_refuted: Closed under the global context 
C33_no_false_recursion_partial: Closed under the global context 
C33_nothing_else_refused: Closed under the global context 
C34_history_does_not_matter: Closed under the global context 
C35_round_trip: Closed under the global context 
C35_survivor_unique: Closed under the global context 
C35_identity_refuted: Closed under the global context 
C36_any: Closed under the global context 
C36_remarshal_refuted: Closed under the global context 
C36_remarshal_partial: Closed under the global context 
C37_order_irrelevant: Closed under the global context 
C37_same_value: Closed under the global context 
C38_top_level: Closed under the global context 
C38_elements: Closed under the global context 
C38_first_error: Closed under the global context 
C38_field: Closed under the global context 
C38_pointer_field: Closed under the global context 
C38_struct_in_interface: Closed under the global context 
C38_honoured_partial: Closed under the global context 
C38_honoured_refuted: Closed under the global context 
C39_no_panic_partial: Closed under the global context 
C39_nil_is_null: Closed under the global context 
C39_nil_accepted: Closed under the global context 
C39_nil_marshaler_refuted: Closed under the global context 
C39_nil_interface_refuted: Closed under the global context 
C40_source_compiles_refuted: Closed under the global context 
C40_source_compiles_partial: Closed under the global context 
C40_all_others_refuted: Closed under the global context 
C40_accepted_types: Closed under the global context 
C41_string_kind_refuted: Closed under the global context 
C41_interface_refuted: Closed under the global context 
C41_string_tag_partial: Closed under the global context 
C42_specials: Closed under the global context 
C42_floats_partial: Closed under the global context 
C42_maxfloat32_refuted: Closed under the global context 
C42_float32_exact: Closed under the global context 
C42_float64_exact: Closed under the global context 
C42_double_rounding_refuted: Closed under the global context 
C43_transparent: Closed under the global context 
C43_immutable: Closed under the global context 
C43_race_free: Closed under the global context 
C43_progress: Closed under the global context 
C43_decoder: Closed under the global context 
C43_encoder: Closed under the global context 
C44_isolated: Closed under the global context 
C44_stable: Closed under the global context 
C44_apart: Closed under the global context 
C44_progress: Closed under the global context 
C44_marshal: Closed under the global context 
C44_marshal_stable: Closed under the global context 
C44_scripts: Closed under the global context 
C45_naming_refuted: Closed under the global context 
C45_naming_partial: Closed under the global context 
C46_inside_interface_refuted: Closed under the global context 
C46_inside_interface_partial: Closed under the global context 
C46_same_value: Closed under the global context 
C47_same_unmarshal: Closed under the global context 
C47_append_refuted: Closed under the global context 
C47_byte_slices_partial: Closed under the global context 
C47_handed_out_apart: Closed under the global context 
C47_data_not_shared: Closed under the global context 
C48_any_total_refuted: Closed under the global context 
C48_any_total_partial: Closed under the global context 
C49_unshared: Closed under the global context 
C49_every_value: Closed under the global context 
C49_sharing_refuted: Closed under the global context 
C50_only_destination: Closed under the global context 
C50_old_elements: Closed under the global context 
C51_any_destination: Closed under the global context 
C52_isolated: Closed under the global context 
C52_unmarshal: Closed under the global context 
C52_kept: Closed under the global context 
C52_exclusive: Closed under the global context 
C52_pool_clean: Closed under the global context 
C52_no_waiting: Closed under the global context 
C53_same_unmarshal: Closed under the global context 
C53_same_outcome: Closed under the global context 
C53_any_count: Closed under the global context 
C53_linear_refuted: Closed under the global context 
C53_slice_refuted: Closed under the global context 
C53_requests: Closed under the global context 
C53_declared: Closed under the global context 
C53_linear_partial: Closed under the global context 
C54_list_cost: Closed under the global context 
C54_linear_refuted: Closed under the global context 
C55_one_key: Closed under the global context 
C55_unmarshal: Closed under the global context 
C55_marshal: Closed under the global context 
C55_one_field: Closed under the global context 
C56_idempotent: Closed under the global context 
C56_nan_keys_refuted: Closed under the global context 
C56_interfaces_refuted: Closed under the global context 
C57_acceptance: Closed under the global context 
C57_interfaces_refuted: Closed under the global context 
C58_pointer: Closed under the global context 
C58_null: Closed under the global context 
C59_offsets_refuted: Closed under the global context 
C59_offsets_partial: Closed under the global context 
C59_offsets_inside: Closed under the global context 
C59_trailing: Closed under the global context 
C60_in_place_partial: Closed under the global context 
C60_append_refuted: Closed under the global context 
C61_error: Closed under the global context 
C61_panic: Closed under the global context 
C62_place_partial: Closed under the global context 
C62_explained: Closed under the global context 
C62_same: Closed under the global context 
C62_uint_refuted: Closed under the global context 
C62_recursive_refuted: Closed under the global context 
C62_method_refuted: Closed under the global context 
C63_panics_iff: Closed under the global context 
C63_otherwise: Closed under the global context 
C64_messages_partial: Closed under the global context 
C64_near_partial: Closed under the global context 
C64_shown: Closed under the global context 
C64_character_refuted: Closed under the global context 
C65_final: Closed under the global context 
C65_end_refuted: Closed under the global context 
C66_beginnings: Closed under the global context 
C66_end_refuted: Closed under the global context 
C67_php_value_partial: Closed under the global context 
C67_refuted: Closed under the global context 
C68_through_php_partial: Closed under the global context 
C68_round_trip_partial: Closed under the global context 
C68_refuted: Closed under the global context 
C69_maps: Closed under the global context 
C69_accepts: Closed under the global context 
C69_not_merged: Closed under the global context 
C70_error_cause: Closed under the global context 
C70_panic_cause: Closed under the global context 
C70_faulty_never_encoded: Closed under the global context 
C70_returns: Closed under the global context 
C70_accepts_iff: Closed under the global context 
C70_diverges_iff: Closed under the global context 
C71_every_error: Closed under the global context 
C71_type_problem: Closed under the global context 
C71_overflow: Closed under the global context 
C71_overflow_int: Closed under the global context 
C71_overflow_uint: Closed under the global context 
C72_same_meaning: Closed under the global context 
C72_same_bytes: Closed under the global context 
C72_accepted_partial: Closed under the global context 
C72_copies: Closed under the global context 
C73_refuted: Closed under the global context 
C73_same_bytes_partial: Closed under the global context 
C73_second_trip_partial: Closed under the global context 
C74_wider: Closed under the global context 
C74_zero: Closed under the global context 
C74_same_type: Closed under the global context 
C74_fewer_fields_refuted: Closed under the global context 
C75_survives: Closed under the global context 
C75_same_bytes: Closed under the global context 
C75_exact: Closed under the global context 
C75_all_data_refuted: Closed under the global context 
C76_counts: Closed under the global context 
C76_linear: Closed under the global context 
C76_any_bytes: Closed under the global context 
C77_float64: Closed under the global context 
C77_zero: Closed under the global context 
C77_infinity: Closed under the global context 
C77_float32_twice: Closed under the global context 
C77_float32_partial: Closed under the global context 
C77_float32_underflow: Closed under the global context 
C77_float32_overflow: Closed under the global context 
C77_float32_refuted: Closed under the global context 
C78_accepted_always: Closed under the global context 
C78_possible_bytes: Closed under the global context 
C78_two_entries_vary: Closed under the global context 
C78_one_entry_fixed: Closed under the global context 
C79_text_names: Closed under the global context 
C79_overflow_text: Closed under the global context 
C79_overflow_distinct: Closed under the global context 
C79_type_text: Closed under the global context 
C80_same_length: Closed under the global context 
C80_exponential: Closed under the global context 
C80_linear_partial: Closed under the global context 
C80_linear_refuted: Closed under the global context 
C81_unmarshal_stack: Closed under the global context 
C81_marshal_unbounded: Closed under the global context 
C82_slice: Closed under the global context 
C82_array: Closed under the global context 
C82_map: Closed under the global context 
C82_struct: Closed under the global context 
C82_pointer: Closed under the global context 
C82_parts_suffice: Closed under the global context 
C83_struct_exact: Closed under the global context 
C84_order: Closed under the global context 
C84_accepted: Closed under the global context 
C84_looks: Closed under the global context 
C84_repeats_refuted: Closed under the global context 
C84_methods_refuted: Closed under the global context 
C85_any_reader: Closed under the global context 
C85_accepted: Closed under the global context 
C86_fewer: Closed under the global context 
C86_zero: Closed under the global context 
C86_marshalled: Closed under the global context 
C86_new_to_old: Closed under the global context 
C87_renamed: Closed under the global context 
C87_same_texts: Closed under the global context 
C87_declared: Closed under the global context 
C87_named_bytes_refuted: Closed under the global context 
C88_rejected: Closed under the global context 
C88_php_only: Closed under the global context 
C88_error: Closed under the global context 
C89_reads_php: Closed under the global context 
C89_nothing_else: Closed under the global context 
C89_lossless: Closed under the global context 
C89_lists: Closed under the global context 
C89_records: Closed under the global context 
C90_returns: Closed under the global context 
C90_no_panic: Closed under the global context 
C90_not_endless: Closed under the global context 
C90_well_typed: Closed under the global context 
C90_errors: Closed under the global context 
C90_accepted: Closed under the global context 
C91_accepted_iff: Closed under the global context 
C91_refused: Closed under the global context 
C91_written: Closed under the global context 
