{
 "claims": [
  {
   "property": "C01",
   "status": "proved",
   "theorems": [
    "C01_varint_round_trip",
    "C01_bool_round_trip"
   ],
   "note": "All six varint types and bool, any suffix."
  },
  {
   "property": "C02",
   "status": "proved",
   "theorems": [
    "C02_size_and_shape",
    "C02_shortest"
   ],
   "note": ""
  },
  {
   "property": "C03",
   "status": "proved",
   "theorems": [
    "C03_accepts",
    "C03_rejects",
    "C03_reads_outside",
    "C03_ignores_suffix",
    "C03_sint32_truncation_refuted",
    "C03_uint32_overlong_refuted"
   ],
   "note": "Exact characterisation of the parser on arbitrary bytes. The two _refuted theorems document deviations from the protobuf wire format."
  },
  {
   "property": "C04",
   "status": "proved",
   "theorems": [
    "C04_bool"
   ],
   "note": ""
  },
  {
   "property": "C05",
   "status": "proved",
   "theorems": [
    "C05_zigzag_code",
    "C05_zigzag_surjective",
    "C05_zigzag_injective",
    "C05_small_magnitude_first"
   ],
   "note": ""
  },
  {
   "property": "C07",
   "status": "proved",
   "theorems": [
    "C07_size_is_length",
    "C07_planned_size",
    "C07_length_prefixes"
   ],
   "note": "Contiguous output."
  },
  {
   "property": "C08",
   "status": "proved",
   "theorems": [
    "C08_cache_consistent",
    "C08_no_overrun"
   ],
   "note": ""
  },
  {
   "property": "C09",
   "status": "proved",
   "theorems": [
    "C09_writes",
    "C09_round_trip",
    "C09_reread"
   ],
   "note": "Field numbers below 2^25; -0.0 in implicit presence members excluded (C14_negative_zero_refuted)."
  },
  {
   "property": "C10",
   "status": "proved",
   "theorems": [
    "C10_round_trip_refuted",
    "C10_number_misread",
    "C10_field_lost"
   ],
   "note": "The round trip fails: numbers in [2^25, 15*2^25) are read as other numbers and the field is lost."
  },
  {
   "property": "C12",
   "status": "proved",
   "theorems": [
    "C12_oversized_refused"
   ],
   "note": ""
  },
  {
   "property": "C14",
   "status": "proved",
   "theorems": [
    "C14_presence",
    "C14_negative_zero_refuted"
   ],
   "note": "Presence is exact; the floating point value -0.0 counts as the default."
  },
  {
   "property": "C15",
   "status": "proved",
   "theorems": [
    "C15_decoding_terminates"
   ],
   "note": "The model is total with fuel bounded by the input length; out of fuel is never the outcome."
  },
  {
   "property": "C21",
   "status": "proved",
   "theorems": [
    "C21_concatenation_is_merge",
    "C21_nested_merge"
   ],
   "note": "Contiguous input."
  },
  {
   "property": "C22",
   "status": "proved",
   "theorems": [
    "C22_last_value_wins",
    "C22_last_alternative_is_active"
   ],
   "note": ""
  },
  {
   "property": "C23",
   "status": "proved",
   "theorems": [
    "C23_packed_unpacked",
    "C23_repeated_elements"
   ],
   "note": ""
  },
  {
   "property": "C24",
   "status": "proved",
   "theorems": [
    "C24_unknown_fields_kept",
    "C24_unknown_written_back",
    "C24_overlong_tag_refuted"
   ],
   "note": "Kept byte for byte for shortest tags; refuted for overlong tags."
  },
  {
   "property": "C25",
   "status": "proved",
   "theorems": [
    "C25_unknown_fields_undisturbing"
   ],
   "note": ""
  },
  {
   "property": "C26",
   "status": "proved",
   "theorems": [
    "C26_skip_consumes_payload",
    "C26_skip_fails",
    "C26_accepted_is_fields",
    "C26_fields_unique",
    "C26_number_zero_in_group_refuted"
   ],
   "note": ""
  },
  {
   "property": "C27",
   "status": "proved",
   "theorems": [
    "C27_limit_exact",
    "C27_limit_monotone",
    "C27_nested_message"
   ],
   "note": ""
  },
  {
   "property": "C28",
   "status": "proved",
   "theorems": [
    "C28_too_deep_refused"
   ],
   "note": "What is written under a limit can be read under the same limit by C09_round_trip."
  },
  {
   "property": "C29",
   "status": "proved",
   "theorems": [
    "C29_closed_enum_members",
    "C29_optional_closed_enum",
    "C29_required_closed_enum",
    "C23_repeated_elements",
    "C29_pair_storage_refuted"
   ],
   "note": ""
  },
  {
   "property": "C30",
   "status": "proved",
   "theorems": [
    "C30_closed_enum_oneof_refuted"
   ],
   "note": "The claim is false: std::get on the inactive alternative throws."
  },
  {
   "property": "C31",
   "status": "proved",
   "theorems": [
    "C31_truncated_field_rejected",
    "C31_accepted_prefix"
   ],
   "note": ""
  },
  {
   "property": "C32",
   "status": "proved",
   "theorems": [
    "C32_field_order"
   ],
   "note": ""
  },
  {
   "property": "C35",
   "status": "proved",
   "theorems": [
    "C35_map_last_entry_wins",
    "C35_map_entry",
    "C35_missing_key_refuted"
   ],
   "note": ""
  },
  {
   "property": "C36",
   "status": "proved",
   "theorems": [
    "C36_operations",
    "C36_operations_from",
    "C36_erase_positions",
    "C36_lower_bound",
    "C36_upper_bound",
    "C36_equal_range"
   ],
   "note": "Observational equivalence with an association list for any sequence of operations; exceptions from element operations are not modelled."
  },
  {
   "property": "C37",
   "status": "proved",
   "theorems": [
    "C37_of_range",
    "C37_of_containers",
    "C37_distinct",
    "C37_insert_range",
    "C37_survivor_refuted"
   ],
   "note": "Which of several values given for one key survives construction depends on the sorting, not on input order."
  },
  {
   "property": "C38",
   "status": "proved",
   "theorems": [
    "C38_try_emplace_hint",
    "C38_insert_or_assign_hint"
   ],
   "note": ""
  },
  {
   "property": "C39",
   "status": "proved",
   "theorems": [
    "C39_reverse",
    "C39_constant_reverse_undefined",
    "C39_constant_reverse_refuted"
   ],
   "note": "rbegin/rend visit last to first; the claim for crbegin/crend is false, they are swapped."
  },
  {
   "property": "C41",
   "status": "proved",
   "theorems": [
    "C41_base64_encode",
    "C41_base64_round_trip"
   ],
   "note": ""
  },
  {
   "property": "C42",
   "status": "proved",
   "theorems": [
    "C42_base64_accepts",
    "C42_base64_unpadded",
    "C42_base64_length",
    "C42_invalid_characters_refuted",
    "C42_all_padding_refuted",
    "C42_padding_bits_refuted"
   ],
   "note": "Acceptance characterised exactly; the stronger reading (only alphabet characters before the padding, left-over bits ignored) is false and refuted."
  },
  {
   "property": "C43",
   "status": "proved",
   "theorems": [
    "C43_format_domain",
    "C43_format",
    "C43_round_trip",
    "C43_parse",
    "C43_parse_valid"
   ],
   "note": "std::from_chars and glz::to_chars are modelled by their documented behaviour."
  },
  {
   "property": "C44",
   "status": "proved",
   "theorems": [
    "C44_calendar",
    "C44_format_domain",
    "C44_format",
    "C44_round_trip",
    "C44_parse",
    "C44_parse_valid",
    "C44_strict_refuted"
   ],
   "note": "The parser also accepts -0 in time fields and .-0 fractions, so the claim that only RFC 3339 texts are accepted is refuted."
  },
  {
   "property": "C45",
   "status": "proved",
   "theorems": [
    "C45_format",
    "C45_round_trip",
    "C45_parse"
   ],
   "note": "The JSON string reader is specified, not modelled."
  },
  {
   "property": "C33",
   "status": "proved",
   "theorems": [
    "C33_dispatch_found",
    "C33_dispatch_not_found",
    "C33_dispatch_is_search",
    "C33_unknown_member_first_refuted"
   ],
   "note": "Precondition: the member for unknown fields is last, as in generated code."
  },
  {
   "property": "C40",
   "status": "proved",
   "theorems": [
    "C40_optional_operations",
    "C40_optional_observers",
    "C40_optional_default",
    "C40_optional_equality",
    "C40_optional_bool_operations",
    "C40_optional_bool_observers",
    "C40_empty_equality_refuted",
    "C40_emplace_default_refuted"
   ],
   "note": "Writing through the reference of an empty optional changes what equality sees; emplace() ignores a declared default except for bool."
  },
  {
   "property": "C34",
   "status": "proved",
   "theorems": [
    "C34_meaning",
    "C34_into_empty",
    "C34_empty_source",
    "C34_associative",
    "C34_copy_or_move",
    "C34_merge_is_concatenation",
    "C34_merge_is_parsing",
    "C34_unknown_fields_lost_refuted",
    "C34_required_reset_refuted",
    "C34_associative_oneof_refuted",
    "C34_copied_negative_zero_refuted",
    "C34_pairs_duplicated_refuted"
   ],
   "note": "The laws hold with the stated conditions; each condition has a witness that it is needed. Self-merge is not modelled."
  },
  {
   "property": "C49",
   "status": "proved",
   "theorems": [
    "C49_cycles_found",
    "C49_pool_acyclic"
   ],
   "note": "File names are resolved to indices before the check, as in the code."
  },
  {
   "property": "C50",
   "status": "proved",
   "theorems": [
    "C50_accepts_valid",
    "C50_contents",
    "C50_message_lookup",
    "C50_enum_lookup"
   ],
   "note": "Leniencies of the code are part of the specification: a message and an enum may share a full name, field names may be empty, default JSON names may collide."
  },
  {
   "property": "C56",
   "status": "proved",
   "theorems": [
    "C56_storage_stable"
   ],
   "note": "Reallocation is the distinct outcome Realloc of the model."
  },
  {
   "property": "C57",
   "status": "proved",
   "theorems": [
    "C57_field_attributes",
    "C57_closed_enums",
    "C57_packed_rule",
    "C57_packed_false_ignored_refuted"
   ],
   "note": "Merging of feature sets is modelled member by member."
  },
  {
   "property": "C11",
   "status": "proved",
   "theorems": [
    "C11_chunked",
    "C11_chunked_fails",
    "C11_adaptive",
    "C11_contiguous",
    "C11_buffer",
    "C11_fixed_buffer",
    "C11_contiguous_overrun_refuted"
   ],
   "note": "The contiguous sink mode does not check the size of the chunk it is given: refuted there, proved for a sink that honours the request."
  },
  {
   "property": "C13",
   "status": "proved",
   "theorems": [
    "C13_append_overwrites",
    "C13_append_refuted"
   ],
   "note": "The English claim is refuted; the actual behaviour is characterised."
  },
  {
   "property": "C58",
   "status": "proved",
   "theorems": [
    "C58_byte_buffer"
   ],
   "note": "grpc_slice memory management is not modelled."
  },
  {
   "property": "C52",
   "status": "proved",
   "theorems": [
    "C52_string_literal"
   ],
   "note": "Read back with a reader for C++ string literals written from the standard."
  },
  {
   "property": "C53",
   "status": "proved",
   "theorems": [
    "C53_comment",
    "C53_comment_injective"
   ],
   "note": ""
  },
  {
   "property": "C54",
   "status": "proved",
   "theorems": [
    "C54_signed_value",
    "C54_signed_accepts",
    "C54_unsigned_value",
    "C54_unsigned_accepts",
    "C54_floating_value",
    "C54_floating_accepts"
   ],
   "note": "For floating literals the emitted text has the same decimal value; rounding by the compiler and the finiteness test are parameters."
  },
  {
   "property": "C55",
   "status": "proved",
   "theorems": [
    "C55_identifier",
    "C55_distinct",
    "C55_distinct_refuted",
    "C55_derived",
    "C55_derived_distinct"
   ],
   "note": "Distinctness is refuted for a keyword and the keyword with an underscore, and proved otherwise."
  },
  {
   "property": "C59",
   "status": "proved",
   "theorems": [
    "C59_include_path"
   ],
   "note": ""
  },
  {
   "property": "C60",
   "status": "proved",
   "theorems": [
    "C60_qualified_name",
    "C60_file_namespace",
    "C60_file_namespace_distinct_refuted"
   ],
   "note": ""
  },
  {
   "property": "C06",
   "status": "proved",
   "theorems": [
    "C06_count",
    "C06_reserved",
    "C06_packed_field",
    "C06_unterminated"
   ],
   "note": "word-at-a-time count modelled bit by bit for both byte orders; contiguous input"
  },
  {
   "property": "C46",
   "status": "proved",
   "theorems": [
    "C46_read",
    "C46_written",
    "C46_rejected"
   ],
   "note": "the validator is a parameter; reading for every archive"
  },
  {
   "property": "C47",
   "status": "proved",
   "theorems": [
    "C47_round_trip",
    "C47_packed",
    "C47_other_type",
    "C47_accepted_urls"
   ],
   "note": "The round trip needs a canonical message (no -0.0 in members without presence), as C09."
  },
  {
   "property": "C48",
   "status": "proved",
   "theorems": [
    "C48_get_after_set",
    "C48_set_works",
    "C48_others",
    "C48_absent",
    "C48_set_default",
    "C48_set_again_pairs",
    "C48_survives_the_wire",
    "C48_parsed",
    "C48_clear_refuted",
    "C48_pairs_refuted"
   ],
   "note": "Holds for non-default values, in a list of pairs when the extension was absent. Two findings: setting an empty value keeps the old one; setting twice in a list of pairs merges."
  },
  {
   "property": "C51",
   "status": "proved",
   "theorems": [
    "C51_slots",
    "C51_share",
    "C51_active",
    "C51_active_plain",
    "C51_accepted"
   ],
   "note": "The bounds asserted on slot numbers and field indices (2^31 fields) are hypotheses."
  },
  {
   "property": "C61",
   "status": "proved",
   "theorems": [
    "C61_new",
    "C61_set_accepts",
    "C61_get_after_set",
    "C61_set_others",
    "C61_set_oneof",
    "C61_emplace",
    "C61_emplace_others",
    "C61_emplace_oneof",
    "C61_clear",
    "C61_clear_others",
    "C61_typed",
    "C61_defined",
    "C61_clear_value_refuted",
    "C61_clear_oneof_refuted",
    "C61_read_enum_refuted"
   ],
   "note": "Sharing of memory between messages (adopt, alias_from) is not modelled. Three findings."
  },
  {
   "property": "C62",
   "status": "proved",
   "theorems": [
    "C62_ends",
    "C62_clone",
    "C62_equal",
    "C62_typed",
    "C62_tidy",
    "C62_set_message",
    "C62_absent_refuted",
    "C62_oneof_refuted",
    "C62_active_refuted"
   ],
   "note": "Proved for types whose oneofs have one member; false otherwise, and absent optional numeric fields become present (findings)."
  },
  {
   "property": "C16",
   "status": "proved",
   "theorems": [
    "C16_in_bounds",
    "C16_memory",
    "C16_patch_size",
    "C16_reference"
   ],
   "note": "For schemas without a closed enum in a oneof or closed enums next to a pair-list store (their other findings); inputs shorter than 2^62 bytes."
  },
  {
   "property": "C17",
   "status": "proved",
   "theorems": [
    "C17_in_bounds",
    "C17_memory",
    "C17_fits"
   ],
   "note": "As C16."
  },
  {
   "property": "C18",
   "status": "proved",
   "theorems": [
    "C18_in_bounds",
    "C18_view_refuted"
   ],
   "note": "For owning strings, bytes views and string views that are not validated; refuted for validated string views."
  },
  {
   "property": "C19",
   "status": "proved",
   "theorems": [
    "C19_segments",
    "C19_cuts",
    "C19_status_refuted"
   ],
   "note": "Same acceptance and message; the error code of refused input can differ (refuted)."
  },
  {
   "property": "C20",
   "status": "proved",
   "theorems": [
    "C20_padding"
   ],
   "note": "Any padding of 16 bytes, zero or not; string views without validation."
  },
  {
   "property": "C63",
   "status": "proved",
   "theorems": [
    "C63_vector",
    "C63_other_views",
    "C63_index",
    "C63_push_own",
    "C63_append_own",
    "C63_push_memory",
    "C63_self_append_refuted",
    "C63_reserve_refuted"
   ],
   "note": "For all operation sequences; refuted for appending the view object itself and for reserve below the size."
  },
  {
   "property": "C64",
   "status": "proved",
   "theorems": [
    "C64_capture",
    "C64_second_occurrence_refuted"
   ],
   "note": "For a message without extension fields so far; refuted when it already has some."
  },
  {
   "property": "C65",
   "status": "proved",
   "theorems": [
    "C65_same_bytes",
    "C65_well_formed",
    "C65_read_by_generated",
    "C65_chunked",
    "C65_exhausted_sink_refuted"
   ],
   "note": "For dynamic messages without unknown fields (they keep none); the promise about exhausted sinks is refuted."
  },
  {
   "property": "C66",
   "status": "proved",
   "theorems": [
    "C66_same_fields",
    "C66_round_trip",
    "C66_short_entry_refuted",
    "C66_stale_value_refuted"
   ],
   "note": "For contiguous input and schemas that generated code supports as well (readable); refuted for map entry types with fewer than two fields and for value() of an absent field without presence."
  },
  {
   "property": "C67",
   "status": "proved",
   "theorems": [
    "C67_well_formed",
    "C67_same_relay"
   ],
   "note": "The bytes are compared with generated code for schemas without map entry types; with them entries are completed when read."
  },
  {
   "property": "C68",
   "status": "proved",
   "theorems": [
    "C68_every_message_once",
    "C68_file_extension_refuted"
   ],
   "note": "For schemas without message-typed extensions declared in a file; refuted for these."
  },
  {
   "property": "C69",
   "status": "proved",
   "theorems": [
    "C69_ordered_schemas",
    "C69_nested_types_refuted",
    "C69_enclosing_type_refuted"
   ],
   "note": "For schemas whose scopes can be ordered and without references to enclosing messages; refuted without either condition."
  },
  {
   "property": "C70",
   "status": "proved",
   "theorems": [
    "C70_cycles",
    "C70_container_refuted",
    "C70_nested_enum_refuted"
   ],
   "note": "For schemas in which containers have no further needs and nested types are named only in their own scope; refuted without these conditions."
  },
  {
   "property": "C71",
   "status": "proved",
   "theorems": [
    "C71_finite_layout",
    "C71_optional_self_refuted",
    "C71_oneof_self_refuted",
    "C71_nested_cycle_refuted",
    "C71_container_refuted"
   ],
   "note": "For cycles of fields outside oneofs between siblings, or a message and itself, one in it or around it; refuted in the other cases."
  },
  {
   "property": "C72",
   "status": "proved",
   "theorems": [
    "C72_common_ancestor",
    "C72_names_of_the_model"
   ],
   "note": "For all names made of non-empty components without dots."
  },
  {
   "property": "C73",
   "status": "proved",
   "theorems": [
    "C73_field",
    "C73_one_meaning",
    "C73_integer_ranges",
    "C73_entry",
    "C73_scope_prefix_refuted",
    "C73_string_default_refuted",
    "C73_required_enum_refuted",
    "C73_legacy_required_enum_refuted",
    "C73_map_delimited_refuted",
    "C73_extension_presence_refuted"
   ],
   "note": "For all fields of structs but the kinds refuted; keys and values of maps; refuted for six kinds of fields."
  },
  {
   "property": "C74",
   "status": "proved",
   "theorems": [
    "C74_members",
    "C74_numbers",
    "C74_schema",
    "C74_round_trip"
   ],
   "note": "Every message made of regular fields; the schema theorem needs field numbers below 2^25 as C09 does."
  },
  {
   "property": "C75",
   "status": "proved",
   "theorems": [
    "C75_is_valid",
    "C75_generated",
    "C75_overflow_refuted"
   ],
   "note": "For every list of values; refuted (overflow in the generator) for values 2^31 or more apart."
  },
  {
   "property": "C76",
   "status": "proved",
   "theorems": [
    "C76_signed",
    "C76_unsigned",
    "C76_dynamic_exact",
    "C76_bytes",
    "C76_bytes_default_refuted",
    "C76_octal_refuted"
   ],
   "note": "Integers and bytes; floating point defaults are not covered."
  },
  {
   "property": "C77",
   "status": "proved",
   "theorems": [
    "C77_defined",
    "C77_well_formed",
    "C77_members",
    "C77_empty_wrapper_refuted",
    "C77_empty_value_refuted",
    "C77_keyless_entry_refuted",
    "C77_absent_mapped_refuted"
   ],
   "note": "For messages whose fields hold values JSON can represent (printable); refuted outside. Tokens; the characters are glaze's. Any is not covered."
  },
  {
   "property": "C78",
   "status": "proved",
   "theorems": [
    "C78_round_trip",
    "C78_negative_enum_refuted",
    "C78_null_enum_refuted",
    "C78_null_enums_refuted"
   ],
   "note": "For every printable message; floating point numbers that glaze reads back as it wrote them. Any is not covered."
  },
  {
   "property": "C79",
   "status": "proved",
   "theorems": [
    "C79_reads_tree",
    "C79_nothing_follows",
    "C79_in_turn",
    "C79_malformed_refuted"
   ],
   "note": "Every JSON value; the specification is DynJsonTree.set_json."
  },
  {
   "property": "C80",
   "status": "proved",
   "theorems": [
    "C80_null_clears",
    "C80_null_value",
    "C80_other_alternative_refuted"
   ],
   "note": "Every field of messages without a form of their own; refuted for the other alternatives of a oneof."
  },
  {
   "property": "C81",
   "status": "proved",
   "theorems": [
    "C81_unknown_member",
    "C81_either_name"
   ],
   "note": "Every object and position."
  },
  {
   "property": "C82",
   "status": "proved",
   "theorems": [
    "C82_defined",
    "C82_new",
    "C82_typed",
    "C82_null_list_refuted"
   ],
   "note": "Every list of tokens, unless null is read for a list of google.protobuf.Value (refuted)."
  },
  {
   "property": "C83",
   "status": "proved",
   "theorems": [
    "C83_to_binary",
    "C83_to_json",
    "C83_writes",
    "C83_whole"
   ],
   "note": "Every list of tokens and every list of bytes; fuel for the text of bytes exists for each input."
  },
  {
   "property": "C84",
   "status": "proved",
   "theorems": [
    "C84_there_and_back",
    "C84_zero_wrapper_refuted"
   ],
   "note": "Binary to JSON to binary; the other direction is refuted for wrappers of default values."
  },
  {
   "property": "C85",
   "status": "proved",
   "theorems": [
    "C85_struct",
    "C85_struct_refuted",
    "C85_nested",
    "C85_nested_declared",
    "C85_namespace",
    "C85_enum",
    "C85_service",
    "C85_service_refuted",
    "C85_refused_refuted"
   ],
   "note": "Every set of files; refuted for oneofs a and a_, for a method _methods, and for schemas refused without need."
  },
  {
   "property": "C86",
   "status": "proved",
   "theorems": [
    "C86_distinct",
    "C86_packages",
    "C86_one_package",
    "C86_distinct_refuted"
   ],
   "note": "Every set of files in which no package continues a namespace with a name declared there; refuted otherwise."
  },
  {
   "property": "C87",
   "status": "proved",
   "theorems": [
    "C87_descriptors"
   ],
   "note": "Every set of files."
  },
  {
   "property": "C88",
   "status": "proved",
   "theorems": [
    "C88_defined",
    "C88_object",
    "C88_no_kind_refuted"
   ],
   "note": "Every schema whose keys are distinct, every well-formed message; refuted for google.protobuf.Value without kind."
  },
  {
   "property": "C89",
   "status": "proved",
   "theorems": [
    "C89_round_trip",
    "C89_wide_oneof_refuted",
    "C89_null_value_refuted",
    "C89_unnamed_enum_refuted",
    "C89_optional_int64_refuted"
   ],
   "note": "Every message whose values JSON represents, every option; refuted for 64-bit integers in oneofs, null values, enums without name and proto3 optional 64-bit integers."
  },
  {
   "property": "C90",
   "status": "proved",
   "theorems": [
    "C90_defined",
    "C90_closed_enum_refuted",
    "C90_required_string_refuted",
    "C90_malformed_refuted"
   ],
   "note": "Every token list; refuted: closed enums and strings of required fields are not checked, some malformed texts are accepted."
  },
  {
   "property": "C91",
   "status": "proved",
   "theorems": [
    "C91_tree",
    "C91_trailing",
    "C91_in_turn",
    "C91_unknown",
    "C91_either_name",
    "C91_null",
    "C91_other_alternative_refuted"
   ],
   "note": "Every JSON value; refuted: null for one alternative of a oneof removes another."
  },
  {
   "property": "C92",
   "status": "proved",
   "theorems": [
    "C92_values",
    "C92_equal",
    "C92_move_child_refuted",
    "C92_assign_child_refuted"
   ],
   "note": "Every program over handles, std::allocator; refuted: move assignment from a part of the value, assignment of an indirect from a part of itself."
  },
  {
   "property": "C93",
   "status": "proved",
   "theorems": [
    "C93_lists",
    "C93_resize_refuted",
    "C93_alias_refuted",
    "C93_reset_refuted",
    "C93_push_memory",
    "C93_push_memory_reserved"
   ],
   "note": "Every program over repeated fields of one kind, with the memory behind them; an element is an opaque value; refuted: elements made by resize, aliases with spare capacity, reset of messages."
  },
  {
   "property": "C94",
   "status": "proved",
   "theorems": [
    "C94_same_text",
    "C94_same_or_deep",
    "C94_generated_to_dynamic",
    "C94_dynamic_to_generated",
    "C94_default_refuted",
    "C94_enum_refuted",
    "C94_wide_refuted"
   ],
   "note": "Default write options; schemas without required fields and Any. `common` names the messages for which it holds; outside of it the refuted theorems show where the texts differ."
  },
  {
   "property": "C95",
   "status": "proved",
   "theorems": [
    "C95_settings",
    "C95_every_text",
    "C95_error"
   ],
   "note": "The error is modelled without its message. A boolean option with any value but true or the empty one counts as false, without an error."
  },
  {
   "property": "C96",
   "status": "proved",
   "theorems": [
    "C96_reads_tree",
    "C96_nothing_follows",
    "C96_type_anywhere",
    "C96_defined",
    "C96_document",
    "C96_type_first",
    "C96_round_trip",
    "C96_nested_message_refuted",
    "C96_empty_refuted",
    "C96_zero_wrapper_refuted",
    "C96_type_name",
    "C96_read_defined",
    "C96_refused",
    "C96_null_list_refuted",
    "C96_without_any"
   ],
   "note": "Round trip for an Any whose value is what the serializer writes, and whose message has no field that is a message other than of a well known type or a map: others lose their braces (C96_nested_message_refuted). An Any that holds nothing or a wrapper of zero is excluded, with witnesses."
  },
  {
   "property": "C97",
   "status": "proved",
   "theorems": [
    "C97_reads_tree",
    "C97_nothing_follows",
    "C97_type_anywhere",
    "C97_read_defined",
    "C97_round_trip",
    "C97_type_first",
    "C97_any_defined",
    "C97_refused",
    "C97_empty_refuted",
    "C97_nested_message_refuted"
   ],
   "note": "Round trip for an Any as in C96. An Any with nothing set is refused when written (C97_empty_refuted), and messages in a message held by an Any lose their braces (C97_nested_message_refuted)."
  },
  {
   "property": "C98",
   "status": "proved",
   "theorems": [
    "C98_round_trip",
    "C98_callback",
    "C98_served",
    "C98_unwritable_refuted"
   ],
   "note": "Unary calls with a callback and their server. If the request cannot be serialized the callback is called once but the reactor is used after it is deleted (C98_unwritable_refuted). Blocking calls are not modelled."
  },
  {
   "property": "C99",
   "status": "proved",
   "theorems": [
    "C99_defined",
    "C99_messages",
    "C99_carries",
    "C99_script",
    "C99_unwritable",
    "C99_left",
    "C99_rules_handled",
    "C99_rules_calm",
    "C99_two_failures_refuted",
    "C99_finished_refuted",
    "C99_unwritable_refuted"
   ],
   "note": "Server streams for any handler. That Finish is called once is not so without the conditions of C99_rules_handled or C99_rules_calm: three witnesses."
  },
  {
   "property": "C100",
   "status": "proved",
   "theorems": [
    "C100_plain",
    "C100_defined",
    "C100_members",
    "C100_round_trip",
    "C100_names_only",
    "C100_names",
    "C100_default_refuted",
    "C100_cleared_refuted",
    "C100_wrapper_refuted",
    "C100_names_refuted"
   ],
   "note": "Messages whose absent numbers hold nothing of an earlier value, whose wrappers have values, and names that are found; witnesses where one of these does not hold, and that strings, bytes and enums are written as null. prettify is not modelled."
  },
  {
   "property": "C101",
   "status": "proved",
   "theorems": [
    "C101_defined",
    "C101_follows",
    "C101_one_request",
    "C101_early",
    "C101_rules",
    "C101_taken",
    "C101_acknowledged",
    "C101_unwritable_refuted"
   ],
   "note": "Applications that keep the rules of the library (one read and one write at a time). Witness: one request that cannot be written. Options of writes other than the last message are not modelled."
  },
  {
   "property": "C102",
   "status": "proved",
   "theorems": [
    "C102_requests",
    "C102_request",
    "C102_replies"
   ],
   "note": "Networks that deliver a prefix of the messages in order, with any cuts; limits of nesting of the reader at least those of the writer. Messages as for C01."
  },
  {
   "property": "C103",
   "status": "proved",
   "theorems": [
    "C103_method",
    "C103_unknown",
    "C103_paths",
    "C103_reached",
    "C103_unreached"
   ],
   "note": "Files whose names and types the generator accepts. That gRPC compares paths byte for byte is part of the specification. An rpc named _methods is finding ay (C85_service_refuted)."
  },
  {
   "property": "C104",
   "status": "proved",
   "theorems": [
    "C104_unwritable",
    "C104_outcome",
    "C104_ok",
    "C104_round_trip",
    "C104_async"
   ],
   "note": "BlockingUnaryCallImpl of the gRPC library is not in the repository; what it does is part of the model and trusted. Messages as for C01."
  },
  {
   "property": "C105",
   "status": "proved",
   "theorems": [
    "C105_no_field",
    "C105_set",
    "C105_one_verdict",
    "C105_ends",
    "C105_value",
    "C105_message",
    "C105_messages",
    "C105_others",
    "C105_alternatives",
    "C105_failed",
    "C105_names_left",
    "C105_typed",
    "C105_get",
    "C105_one_answer",
    "C105_get_after_set",
    "C105_chain",
    "C105_names_refuted",
    "C105_messages_refuted",
    "C105_span_refuted"
   ],
   "note": "Copies of messages as for C62: types whose oneofs have one member each. Which C++ types an argument converts from is not modelled beyond enum_name for strings. Refuted for failed calls with lists of names or of messages, which change the field, and for enum_numbers_span as an argument."
  },
  {
   "property": "C106",
   "status": "proved",
   "theorems": [
    "C106_accepts",
    "C106_refuses",
    "C106_types",
    "C106_lookup",
    "C106_tags",
    "C106_numbers",
    "C106_closed",
    "C106_wellformed",
    "C106_readable",
    "C106_defaults_fit",
    "C106_new",
    "C106_reads",
    "C106_implicit_default_refuted",
    "C106_short_entry_refuted"
   ],
   "note": "which sets of descriptors are accepted; each type means its descriptor; lookup by name; tags; the assumptions of the theorems on dynamic messages hold for accepted descriptors; new messages read as the default values; reading agrees with generated code. C106_wellformed, C106_new and C106_reads ask that fields without presence have no default value, C106_readable that map entries have two fields: the refuted theorems show that the factory does not check this"
  },
  {
   "property": "C107",
   "status": "proved",
   "theorems": [
    "C107_means",
    "C107_types",
    "C107_enums_fit",
    "C107_round_trip",
    "C107_to_json",
    "C107_same_name_refuted",
    "C107_no_name_refuted"
   ],
   "note": "names, enums and well known types are those of the descriptors; jtypes_ok holds for accepted descriptors that have distinct JSON names, distinct names of enum values and map entries as protoc makes them; round trip and conversion from descriptors on. The refuted theorems show that the factory does not check the JSON names"
  },
  {
   "property": "C108",
   "status": "proved",
   "theorems": [
    "C108_generates",
    "C108_array",
    "C108_factory",
    "C108_unreadable",
    "C108_no_messages_refuted"
   ],
   "note": "for files that have messages; the header of a file that imports one without messages cannot be compiled (finding cp). Reading a descriptor is assumed to undo writing it (C09)"
  },
  {
   "property": "C109",
   "status": "proved",
   "theorems": [
    "C109_types",
    "C109_resolves",
    "C109_means",
    "C109_round_trip",
    "C109_read_defined",
    "C109_unknown_refused"
   ],
   "note": "for descriptors as in C106 and C107 and messages that can be printed (C96); reading nulls is defined under the conditions of C96"
  },
  {
   "property": "C110",
   "status": "proved",
   "theorems": [
    "C110_fields",
    "C110_types",
    "C110_unknown",
    "C110_set",
    "C110_value",
    "C110_set_get",
    "C110_get",
    "C110_others",
    "C110_oneof"
   ],
   "note": "for descriptors as in C106, without defaults on fields that have no presence"
  },
  {
   "property": "C111",
   "status": "proved",
   "theorems": [
    "C111_has",
    "C111_clear",
    "C111_others",
    "C111_active",
    "C111_active_own",
    "C111_factory_has",
    "C111_factory_clear",
    "C111_factory_active"
   ],
   "note": "for messages decoded from bytes or new, then changed by setting, clearing, cloning and reading JSON without Any; the C111_factory theorems for descriptors as in C110"
  },
  {
   "property": "C112",
   "status": "proved",
   "theorems": [
    "C112_write",
    "C112_read",
    "C112_all",
    "C112_short",
    "C112_decoder",
    "C112_raw_whole"
   ],
   "note": "for input in one region"
  },
  {
   "property": "C113",
   "status": "proved",
   "theorems": [
    "C113_moves",
    "C113_distance",
    "C113_element",
    "C113_loop",
    "C113_gone_refuted",
    "C113_copies_refuted"
   ],
   "note": "for iterators of a reference that exists; the two refuted theorems show that this is needed"
  },
  {
   "property": "C114",
   "status": "proved",
   "theorems": [
    "C114_literal",
    "C114_whole",
    "C114_other",
    "C114_padded",
    "C114_buffer_refuted"
   ],
   "note": "literals and arrays without a null at the end; buffers longer than their C string refuted"
  },
  {
   "property": "C115",
   "status": "proved",
   "theorems": [
    "C115_no_field",
    "C115_refused",
    "C115_runs",
    "C115_set",
    "C115_chain",
    "C115_state_refuted"
   ],
   "note": "for function objects that change the field they are called with; that they are called, not copies of them, is refuted"
  }
 ]
}