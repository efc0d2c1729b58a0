{
 "claims": [
  {
   "property": "C01",
   "status": "proved",
   "theorems": [
    "C01_varint_round_trip",
    "C01_unsigned_field_round_trip"
   ],
   "note": ""
  },
  {
   "property": "C02",
   "status": "proved",
   "theorems": [
    "C02_varint_canonical",
    "C02_unsigned_payload"
   ],
   "note": ""
  },
  {
   "property": "C03",
   "status": "proved",
   "theorems": [
    "C03_zigzag_payload",
    "C03_zigzag_bijection",
    "C03_zigzag_round_trip",
    "C03_zigzag_field"
   ],
   "note": ""
  },
  {
   "property": "C04",
   "status": "partial",
   "theorems": [
    "C04_int_round_trip",
    "C04_accepts_prescribed_encoding",
    "C04_prescribed_bytes_partial",
    "C04_negative_int32_refuted"
   ],
   "note": "Negative int32 values are not sent as prescribed (refuted for every one); the round trip and everything else is proved."
  },
  {
   "property": "C05",
   "status": "partial",
   "theorems": [
    "C05_single_field_partial",
    "C05_negative_zero_refuted",
    "C05_fixed_bytes",
    "C05_fixed_round_trip"
   ],
   "note": "Proved for single values, lists and maps, bit for bit. Refuted for singular message fields holding a negative zero, which always arrive as zero."
  },
  {
   "property": "C06",
   "status": "partial",
   "theorems": [
    "C06_tag_round_trip",
    "C06_tag_bytes",
    "C06_tags_prefix_free",
    "C06_invalid_tag_rejected",
    "C06_wide_tag_refuted"
   ],
   "note": "Tags of more than 32 bits are truncated instead of rejected (refuted); the rest is proved."
  },
  {
   "property": "C07",
   "status": "proved",
   "theorems": [
    "C07_blob_round_trip",
    "C07_blob_field"
   ],
   "note": "Strings as the bytes on the wire; C80 is about the texts in a QString."
  },
  {
   "property": "C08",
   "status": "proved",
   "theorems": [
    "C08_list_exact",
    "C08_packed_record_round_trip",
    "C08_empty_list_not_sent",
    "C08_list_field_round_trip"
   ],
   "note": ""
  },
  {
   "property": "C09",
   "status": "proved",
   "theorems": [
    "C09_blob_list_round_trip",
    "C09_message_list_round_trip",
    "C09_one_record_per_element"
   ],
   "note": ""
  },
  {
   "property": "C10",
   "status": "proved",
   "theorems": [
    "C10_scalar_map_exact",
    "C10_map_round_trip"
   ],
   "note": ""
  },
  {
   "property": "C11",
   "status": "proved",
   "theorems": [
    "C11_enum_round_trip",
    "C11_enum_list_round_trip",
    "C11_zero_not_sent"
   ],
   "note": ""
  },
  {
   "property": "C12",
   "status": "proved",
   "theorems": [
    "C12_exact_round_trip",
    "C12_exact_unique",
    "C12_forwarded_unchanged",
    "C12_message_round_trip",
    "C12_compares_equal"
   ],
   "note": ""
  },
  {
   "property": "C13",
   "status": "proved",
   "theorems": [
    "C13_output_well_formed"
   ],
   "note": ""
  },
  {
   "property": "C14",
   "status": "proved",
   "theorems": [
    "C14_order_irrelevant",
    "C14_interleaving_irrelevant"
   ],
   "note": ""
  },
  {
   "property": "C15",
   "status": "proved",
   "theorems": [
    "C15_unknown_fields_skipped"
   ],
   "note": ""
  },
  {
   "property": "C16",
   "status": "partial",
   "theorems": [
    "C16_last_one_wins",
    "C16_lists_append",
    "C16_map_last_entry",
    "C16_packed_numbers_partial",
    "C16_packed_concat_refuted"
   ],
   "note": "Packed numeric records replace each other instead of being concatenated (refuted for every pair of lists); scalars, lists of strings, bytes and messages, enum lists and maps are proved."
  },
  {
   "property": "C17",
   "status": "partial",
   "theorems": [
    "C17_absent_default",
    "C17_target_replaced_partial",
    "C17_read_object",
    "C17_independent_of_target_partial",
    "C17_without_message_maps",
    "C17_new_target",
    "C17_message_map_refuted"
   ],
   "note": "Proved when maps to messages in nested messages of target and result have the same keys or sizes that differ (in particular for new targets and types without such maps); every other case crashes (refuted for all such targets)."
  },
  {
   "property": "C18",
   "status": "partial",
   "theorems": [
    "C18_failure_keeps_prefix_partial",
    "C18_run_partial",
    "C18_negative_length_refuted"
   ],
   "note": "Proved for all inputs on which no length of 2^31 or more is met; refuted for those."
  },
  {
   "property": "C19",
   "status": "proved",
   "theorems": [
    "C19_truncation_not_accepted",
    "C19_truncated_message_not_accepted"
   ],
   "note": ""
  },
  {
   "property": "C20",
   "status": "partial",
   "theorems": [
    "C20_negative_length_refuted",
    "C20_termination_partial",
    "C20_run_partial"
   ],
   "note": "Refuted: a length of 2^31 or more loops for ever. Proved for all other inputs."
  },
  {
   "property": "C21",
   "status": "partial",
   "theorems": [
    "C21_over_read_refuted",
    "C21_shift_refuted",
    "C21_jump_refuted",
    "C21_kinds",
    "C21_only_over_read_partial",
    "C21_no_run_partial",
    "C21_only_two_kinds_partial",
    "C21_well_formed_safe"
   ],
   "note": "Refuted: over-read and wide shift. Proved: these are the only kinds of undefined behaviour, and well-formed input has none."
  },
  {
   "property": "C22",
   "status": "partial",
   "theorems": [
    "C22_serialization_terminates",
    "C22_recursive_type_refuted",
    "C22_cycle_diverges"
   ],
   "note": "Characterised: terminates for all values of types without a cycle of singular message fields, diverges for every type on a cycle."
  },
  {
   "property": "C23",
   "status": "partial",
   "theorems": [
    "C23_concatenation_partial",
    "C23_merge_refuted"
   ],
   "note": "Singular messages are not merged and packed numbers not appended (refuted for every such pair); scalars, the other lists and maps are proved."
  },
  {
   "property": "C24",
   "status": "partial",
   "theorems": [
    "C24_plain_setter",
    "C24_nan_setter",
    "C24_message_setter_partial",
    "C24_message_setter_refuted",
    "C24_container_setter_partial",
    "C24_container_setter_refuted",
    "C24_setter_sequence_partial",
    "C24_assignment_signals_partial"
   ],
   "note": "Refuted for containers of messages (signal for equal content); setters of nested messages proved when maps to messages inside can be compared, and shown to crash when such maps have as many entries but other keys. Sequences of calls: types without maps to messages in nested messages."
  },
  {
   "property": "C25",
   "status": "partial",
   "theorems": [
    "C25_equality_decides_partial",
    "C25_different_keys_refuted",
    "C25_decides_without_maps",
    "C25_null_values_refuted",
    "C25_null_element_refuted",
    "C25_reflexive",
    "C25_symmetric",
    "C25_transitive",
    "C25_equal_values",
    "C25_creation_irrelevant",
    "C25_copy_equal",
    "C25_assignment_equal_partial",
    "C25_assignment_refuted"
   ],
   "note": "Equality decides for all values whose maps to messages have the same keys or sizes that differ; all other maps to messages crash or, with null values, compare wrongly (refuted); null list elements crash."
  },
  {
   "property": "C26",
   "status": "partial",
   "theorems": [
    "C26_nested_changes_partial",
    "C26_unshared_types_partial",
    "C26_shared_elements_refuted"
   ],
   "note": "Elements of repeated messages and maps are shared (refuted); everything else is independent."
  },
  {
   "property": "C27",
   "status": "partial",
   "theorems": [
    "C27_move_construction",
    "C27_move_assignment_partial",
    "C27_move_assignment_refuted"
   ],
   "note": "Move assignment proved when maps to messages in nested messages can be compared; it crashes on maps with as many entries but other keys (refuted for all such values)."
  },
  {
   "property": "C28",
   "status": "partial",
   "theorems": [
    "C28_deserialized",
    "C28_distinct",
    "C28_unknown_number",
    "C28_serialized_partial",
    "C28_clash_refuted",
    "C28_names",
    "C28_lookup_partial",
    "C28_lookup_refuted"
   ],
   "note": "Serialization reads the wrong property in every message with a clash of names (refuted), the right one in all others; deserialization is proved. Names and lookup by name are proved for messages without a clash; with a clash a name may lead to another field (refuted)."
  },
  {
   "property": "C29",
   "status": "proved",
   "theorems": [
    "C29_exclusive",
    "C29_atomic_registration",
    "C29_atomic_lookup",
    "C29_sees_completed",
    "C29_no_deadlock",
    "C29_terminates",
    "C29_all_calls_return"
   ],
   "note": ""
  },
  {
   "property": "C30",
   "status": "partial",
   "theorems": [
    "C30_in_order_once_partial",
    "C30_ends",
    "C30_late_library_refuted",
    "C30_threads_twice_refuted",
    "C30_threads_early_return_refuted"
   ],
   "note": "Refuted for libraries loaded later and for several threads; proved for one thread."
  },
  {
   "property": "C31",
   "status": "partial",
   "theorems": [
    "C31_built_in",
    "C31_stable",
    "C31_loaded",
    "C31_unknown_data",
    "C31_data_defined",
    "C31_unknown_plugin_refuted",
    "C31_bad_file"
   ],
   "note": "The serializer of an unknown plugin is a null dereference (refuted); the rest is proved."
  },
  {
   "property": "C32",
   "status": "proved",
   "theorems": [
    "C32_request_framed",
    "C32_request_unambiguous"
   ],
   "note": ""
  },
  {
   "property": "C33",
   "status": "partial",
   "theorems": [
    "C33_messages_delivered_partial",
    "C33_prompt_delivery_partial",
    "C33_header_dropped_refuted",
    "C33_split_header_refuted",
    "C33_empty_message_refuted",
    "C33_finished_reply_refuted"
   ],
   "note": "Proved for all chunkings that do not split a header and do not put an empty message behind another one in a chunk; refuted for these and for data received with the end of the reply."
  },
  {
   "property": "C34",
   "status": "partial",
   "theorems": [
    "C34_reader_safe_partial",
    "C34_hostile_length_refuted",
    "C34_short_chunk_refuted"
   ],
   "note": "Refuted for lengths from 2^31 up and short first chunks; safe otherwise."
  },
  {
   "property": "C35",
   "status": "partial",
   "theorems": [
    "C35_network_error",
    "C35_network_error_status",
    "C35_server_error",
    "C35_response_data_partial",
    "C35_ok_means_no_error",
    "C35_missing_status_refuted",
    "C35_truncated_response_refuted"
   ],
   "note": "Refuted: missing or garbled grpc-status and truncated bodies count as success. The rest is proved."
  },
  {
   "property": "C36",
   "status": "proved",
   "theorems": [
    "C36_first_event_decides",
    "C36_ends_once",
    "C36_abort_clears_data",
    "C36_native_channel",
    "C36_threads"
   ],
   "note": " For the threads of the native channel: C36_threads."
  },
  {
   "property": "C37",
   "status": "proved",
   "theorems": [
    "C37_shared",
    "C37_separate",
    "C37_all_handlers",
    "C37_one_connection"
   ],
   "note": ""
  },
  {
   "property": "C38",
   "status": "partial",
   "theorems": [
    "C38_native_abort_partial",
    "C38_native_queue_refuted",
    "C38_server_end",
    "C38_abort_partial",
    "C38_released_partial",
    "C38_abort_during_retry_refuted"
   ],
   "note": "Refuted: a stream aborted while a retry is pending starts again. Proved for connected streams and ends by the server. Over the native channel queued messages are still delivered after the abort (refuted); nothing that arrives later is."
  },
  {
   "property": "C39",
   "status": "partial",
   "theorems": [
    "C39_wrong_thread",
    "C39_attach_partial",
    "C39_several_streams_refuted"
   ],
   "note": "Refuted for two or more active streams (undefined behaviour); proved for at most one."
  },
  {
   "property": "C40",
   "status": "partial",
   "theorems": [
    "C40_open_iff_set",
    "C40_completing_change",
    "C40_disabling_cancels",
    "C40_change_while_open_refuted",
    "C40_change_and_enable_partial",
    "C40_independent_elements_refuted",
    "C40_server_end",
    "C40_destruction",
    "C40_stale_end_refuted"
   ],
   "note": "Refuted: a property change while open disables the element; equal elements disturb each other; a stale end is taken for the current one. The rest is proved."
  },
  {
   "property": "C41",
   "status": "partial",
   "theorems": [
    "C41_failures_reported_once_partial",
    "C41_exceptions_mapped",
    "C41_target_deleted_refuted"
   ],
   "note": "Refuted when the target is deleted during the call; proved otherwise."
  },
  {
   "property": "C42",
   "status": "partial",
   "theorems": [
    "C42_round_trip_partial",
    "C42_null_time_refuted",
    "C42_time_spec_refuted",
    "C42_colour_refuted",
    "C42_rect_width_refuted",
    "C42_rect_edge_refuted"
   ],
   "note": "Proved for all values except null times, time specifications other than local, colours that are not 8 bit RGB, rectangles at the edge of the int range, which are refuted. URLs and images: Qt is assumed to read back what it writes."
  },
  {
   "property": "C43",
   "status": "partial",
   "theorems": [
    "C43_well_formed_partial",
    "C43_empty_message_refuted",
    "C43_unescaped_refuted",
    "C43_not_finite_refuted",
    "C43_defined"
   ],
   "note": "Refuted for strings that need escaping, not finite numbers and messages without fields; proved otherwise."
  },
  {
   "property": "C44",
   "status": "partial",
   "theorems": [
    "C44_header",
    "C44_source",
    "C44_services",
    "C44_agree",
    "C44_multi",
    "C44_multi_forward_refuted"
   ],
   "note": "Refuted: forward declarations in multi file mode omit the extra namespace. The rest is proved."
  },
  {
   "property": "C45",
   "status": "partial",
   "theorems": [
    "C45_global_clash_refuted",
    "C45_base_name",
    "C45_folder",
    "C45_no_suffix_refuted",
    "C45_multi",
    "C45_services",
    "C45_service_clash_refuted"
   ],
   "note": "Refuted for file names without suffix and for clashes of names; proved otherwise."
  },
  {
   "property": "C46",
   "status": "partial",
   "theorems": [
    "C46_cmake",
    "C46_flags",
    "C46_no_namespace",
    "C46_namespace_last_partial",
    "C46_namespace_not_last_refuted"
   ],
   "note": "Refuted unless the extra namespace is the last option, as it is in CMake; flags are proved in any order."
  },
  {
   "property": "C47",
   "status": "partial",
   "theorems": [
    "C47_at_most_once",
    "C47_top_level",
    "C47_nested_partial",
    "C47_unused_refuted",
    "C47_undeclared_refuted",
    "C47_before_use",
    "C47_multi_same",
    "C47_multi_outermost_partial",
    "C47_multi_inner",
    "C47_multi_siblings_refuted"
   ],
   "note": "Refuted for nested messages no field of the parent uses; proved for the others, and at most one class in any case."
  },
  {
   "property": "C48",
   "status": "partial",
   "theorems": [
    "C48_once_partial",
    "C48_none_left_partial",
    "C48_one_owner_partial",
    "C48_replaced_partial",
    "C48_deleted_partial",
    "C48_no_qml_refuted",
    "C48_shared_refuted",
    "C48_cycle_refuted",
    "C48_collected_refuted"
   ],
   "note": "Proved in builds with QML for all histories without sharing of lazily created objects, cycles and collection by the engine, which are refuted; refuted for builds without QML."
  },
  {
   "property": "C49",
   "status": "partial",
   "theorems": [
    "C49_plain_list_partial",
    "C49_out_of_range_refuted",
    "C49_twice_refuted",
    "C49_deleted_refuted"
   ],
   "note": "Proved for all histories without out of range access, double insertion and foreign deletion, which are refuted."
  },
  {
   "property": "C50",
   "status": "partial",
   "theorems": [
    "C50_wire_type_refuted",
    "C50_unpacked_refuted",
    "C50_mismatch_refuted",
    "C50_fitting_records_partial"
   ],
   "note": "Wire types are not checked (refuted); fitting records are interpreted as prescribed."
  },
  {
   "property": "C51",
   "status": "partial",
   "theorems": [
    "C51_entry_parts_partial",
    "C51_unknown_part_refuted",
    "C51_missing_message_refuted"
   ],
   "note": "Refuted for unknown parts and missing message values; proved otherwise."
  },
  {
   "property": "C52",
   "status": "partial",
   "theorems": [
    "C52_bool_truth_partial",
    "C52_bool_truth_refuted"
   ],
   "note": "Refuted for multiples of 2^32 other than zero; proved for all others."
  },
  {
   "property": "C53",
   "status": "partial",
   "theorems": [
    "C53_result_well_typed",
    "C53_no_null_elements",
    "C53_null_map_value_refuted",
    "C53_json_well_typed",
    "C53_json_no_null_elements",
    "C53_json_null_map_value_refuted"
   ],
   "note": "Well-typed in all cases, from binary input and from JSON; null pointers only as values of maps to messages (refuted there)."
  },
  {
   "property": "C54",
   "status": "proved",
   "theorems": [
    "C54_end_to_end"
   ],
   "note": ""
  },
  {
   "property": "C55",
   "status": "partial",
   "theorems": [
    "C55_kept_alive_partial",
    "C55_failure_reported",
    "C55_retry",
    "C55_native_end_refuted"
   ],
   "note": "Proved for HTTP/2; refuted for the other channel after a regular end."
  },
  {
   "property": "C56",
   "status": "partial",
   "theorems": [
    "C56_denotes_partial",
    "C56_enum_refuted",
    "C56_injection_refuted",
    "C56_float_refuted",
    "C56_double_refuted"
   ],
   "note": "Proved where C43 holds and enum values are their indexes; refuted for other enums, for strings that add members, and for floats and lists of doubles, of which different ones have the same six digits."
  },
  {
   "property": "C57",
   "status": "partial",
   "theorems": [
    "C57_field_lookup_partial",
    "C57_list_lookup_partial",
    "C57_small_letter_refuted",
    "C57_package_hidden_refuted",
    "C57_nested_hidden_refuted",
    "C57_alias_lookup_partial",
    "C57_method_lookup_partial",
    "C57_method_small_refuted",
    "C57_full_names_partial",
    "C57_full_list_names_partial",
    "C57_field_names_partial",
    "C57_method_names_partial"
   ],
   "note": "For every set of declarations, C++ lookup of the printed name finds the class if and only if the first part of the name is not hidden; fields, lists, aliases, remote procedures, meta types. Refuted for every case with a small first letter in the name of a message around, for a package that is part of another, and for a message called like a nested one."
  },
  {
   "property": "C58",
   "status": "partial",
   "theorems": [
    "C58_import_partial",
    "C58_import_refuted",
    "C58_own_header",
    "C58_service_header_refuted"
   ],
   "note": "Characterised for imports; the client source includes a wrong header (refuted)."
  },
  {
   "property": "C59",
   "status": "proved",
   "theorems": [
    "C59_nested_change",
    "C59_read_back"
   ],
   "note": ""
  },
  {
   "property": "C60",
   "status": "partial",
   "theorems": [
    "C60_float_refuted",
    "C60_double_refuted",
    "C60_one_result",
    "C60_reads_partial",
    "C60_round_trip_partial",
    "C60_number_refuted",
    "C60_enum_refuted",
    "C60_not_finite_refuted",
    "C60_escapes_refuted",
    "C60_bool_key_refuted",
    "C60_null_enum_refuted"
   ],
   "note": "Proved for texts without escape sequences other than that of the quotation mark, without bool map keys, and with enums given by name; floating point texts are whatever Qt converts. Refuted: other escape sequences, numbers such as 1e2 or out of range, enums as numbers, null enums, bool map keys, NaN and infinities as strings, floats and lists of doubles, which are written with six digits."
  },
  {
   "property": "C61",
   "status": "partial",
   "theorems": [
    "C61_ignored_partial",
    "C61_element_refuted",
    "C61_enum_refuted",
    "C61_message_refuted"
   ],
   "note": "Proved for unknown names and for values of a wrong kind, also of floating point fields (for all texts that Qt does not read as numbers) and strings that are no numbers. Missing: members that occur twice, and lists of messages and maps given a value of a wrong kind, which is up to microjson. Refuted: elements of a wrong kind in repeated fields become default values, enum fields become -1, message fields are replaced by new messages if microjson finds no members."
  },
  {
   "property": "C62",
   "status": "partial",
   "theorems": [
    "C62_handlers_partial",
    "C62_unsupported_refuted",
    "C62_enum_elsewhere_refuted",
    "C62_repeated_bool_refuted"
   ],
   "note": "Proved for all supported types and all orders of registration. Refuted for every other type that protoc allows: enumerations of messages without a direct field of the type, repeated and mapped Qt types, repeated bool."
  },
  {
   "property": "C63",
   "status": "partial",
   "theorems": [
    "C63_lookup_partial",
    "C63_enumerators",
    "C63_distinct_partial",
    "C63_distinct_refuted",
    "C63_field_constants",
    "C63_initial_partial",
    "C63_initial_refuted",
    "C63_top_level_partial",
    "C63_of_message_partial",
    "C63_own_partial",
    "C63_nested_refuted",
    "C63_around_refuted",
    "C63_extra_refuted",
    "C63_small_refuted"
   ],
   "note": "Values and field constants are proved. Names are proved for enumerations of the top level, of messages of the top level and of the class's own message. Refuted: enumerations of nested messages used elsewhere, of the message around a class, nested ones with an extra namespace, of messages with a small first letter; the initial value and clashes of values with a small first letter. Lookup with hiding: C63_lookup_partial."
  },
  {
   "property": "C64",
   "status": "partial",
   "theorems": [
    "C64_all_counts",
    "C64_members",
    "C64_overloads_partial",
    "C64_own_type_first_refuted"
   ],
   "note": "Members are proved for all constructors. Overloads are proved unless the first field is of the type of the message itself (refuted)."
  },
  {
   "property": "C65",
   "status": "partial",
   "theorems": [
    "C65_requests",
    "C65_complete",
    "C65_client_stream_refuted",
    "C65_signatures_partial",
    "C65_signatures_refuted"
   ],
   "note": "Paths, streams, arguments and completeness are proved. Signatures are proved for different method names, refuted for others. Client streams are refuted."
  },
  {
   "property": "C66",
   "status": "partial",
   "theorems": [
    "C66_own_fields_partial",
    "C66_messages",
    "C66_type_inside_first_refuted",
    "C66_inner_enums_refuted",
    "C66_headers_refuted"
   ],
   "note": "Proved for the message's own fields without both a type inside of it and a global enumeration, and for message fields of inner classes. Refuted: the remaining cases."
  },
  {
   "property": "C67",
   "status": "partial",
   "theorems": [
    "C67_round_trip",
    "C67_meaning_partial",
    "C67_meaning_refuted",
    "C67_negative_refuted",
    "C67_reading_partial",
    "C67_reading_refuted"
   ],
   "note": "The round trip is proved. The meaning is proved for whole seconds only, and refuted for all other times."
  },
  {
   "property": "C68",
   "status": "partial",
   "theorems": [
    "C68_script_partial",
    "C68_script_into_partial",
    "C68_callback_partial",
    "C68_end_to_end",
    "C68_undecodable_refuted",
    "C68_no_channel_refuted",
    "C68_invalid_refuted",
    "C68_callback_error_refuted"
   ],
   "note": "Proved for calls that can be started and as long as client, context or engine and channel exist: nothing before the end, then exactly one callback, end to end with serializer and framing. Refuted: undecodable responses, missing channel, invalid arguments, failures of calls with a C++ callback."
  },
  {
   "property": "C69",
   "status": "partial",
   "theorems": [
    "C69_kept",
    "C69_released_partial",
    "C69_callbacks_refuted",
    "C69_dangling_refuted"
   ],
   "note": "Proved: a reply is kept while its call runs or a handle is held; replies returned to user code are released. Refuted: replies of calls with callbacks stay; handles dangle after the destruction of the client."
  },
  {
   "property": "C70",
   "status": "partial",
   "theorems": [
    "C70_kept_partial",
    "C70_replaced_refuted"
   ],
   "note": "Proved as long as a pointer to the old channel exists. Refuted otherwise: the call never ends."
  },
  {
   "property": "C71",
   "status": "partial",
   "theorems": [
    "C71_address",
    "C71_address_unambiguous",
    "C71_protocol_partial",
    "C71_credentials_partial",
    "C71_nothing_else",
    "C71_user_password",
    "C71_https",
    "C71_clear_text_refuted",
    "C71_base_path_refuted",
    "C71_protocol_refuted",
    "C71_null_refuted",
    "C71_case_refuted",
    "C71_compression_refuted"
   ],
   "note": "Proved: address, frame, user and password, https, no other headers; protocol headers and credentials unless names clash. Refuted: SSL configuration without https, base path, reserved names, null values, names that differ in case, compression."
  },
  {
   "property": "C72",
   "status": "partial",
   "theorems": [
    "C72_scan_partial",
    "C72_single_partial",
    "C72_multi_partial",
    "C72_comment_refuted",
    "C72_same_line_refuted",
    "C72_braces_refuted",
    "C72_brackets_refuted",
    "C72_split_name_refuted",
    "C72_global_enums_refuted",
    "C72_comment_file_refuted",
    "C72_false_name_refuted",
    "C72_exclude",
    "C72_exclude_refuted"
   ],
   "note": "Proved for tidy sources (declarations at the start of lines, at most one opening and one closing brace on the lines of messages), except for globalenums.cpp. Refuted for comments that look like messages, several declarations or braces on a line, names on the next line, open square brackets, and names that mean false to CMake."
  },
  {
   "property": "C73",
   "status": "proved",
   "theorems": [
    "C73_in_order",
    "C73_right_stream",
    "C73_error_last",
    "C73_complete",
    "C73_dispatch"
   ],
   "note": "Proved for all interleavings, with the gRPC library and the event queue of Qt through their interfaces. For the time after an abort see C38."
  },
  {
   "property": "C74",
   "status": "partial",
   "theorems": [
    "C74_no_dangling_partial",
    "C74_no_dangling_streams",
    "C74_channel_dropped_refuted",
    "C74_no_deadlock_partial",
    "C74_released"
   ],
   "note": "Proved as long as channels outlive the first step of the threads of their calls. Refuted otherwise: the thread of a call uses the destroyed channel."
  },
  {
   "property": "C75",
   "status": "partial",
   "theorems": [
    "C75_members",
    "C75_signal_refuted",
    "C75_pointer_refuted",
    "C75_taken_refuted",
    "C75_capital_refuted",
    "C75_list_refuted",
    "C75_class_name_partial",
    "C75_class_name_refuted",
    "C75_identifiers_partial",
    "C75_identifiers_refuted",
    "C75_keywords",
    "C75_keywords_refuted",
    "C75_parameters",
    "C75_definitions_partial",
    "C75_qt_list_refuted",
    "C75_property_names",
    "C75_property_names_refuted",
    "C75_constructors",
    "C75_properties",
    "C75_every_property_partial",
    "C75_meta_types_partial",
    "C75_meta_types_refuted"
   ],
   "note": "The exact conditions for clashes and keywords are proved (iff); names that make classes which do not compile, lists of Qt types with QML and two fields of one local enumeration are refuted for every such message. The text of declarations and bodies is modelled by names, types and effects."
  },
  {
   "property": "C76",
   "status": "partial",
   "theorems": [
    "C76_comparison_partial",
    "C76_copy",
    "C76_assignment_partial",
    "C76_self_assignment",
    "C76_self_assignment_quiet",
    "C76_move_constructor",
    "C76_move_assignment_partial",
    "C76_move_signals_partial",
    "C76_move_enum_refuted",
    "C76_move_number_refuted",
    "C76_self_move"
   ],
   "note": "Proved from the statements in the printed bodies. Partial for maps to messages that cannot be compared (crash, see C25, C27) and for lists of messages, which may emit without a change (C24). Refuted for the signals of moves: enumerations emit none, numbers of the source always emit. Fields of Qt types are not covered."
  },
  {
   "property": "C77",
   "status": "partial",
   "theorems": [
    "C77_own_result",
    "C77_client_errors",
    "C77_nested_first",
    "C77_in_order",
    "C77_caller_waits",
    "C77_caller_idle",
    "C77_attached",
    "C77_one_answer",
    "C77_no_dangling_partial",
    "C77_flat_partial",
    "C77_dangling_refuted",
    "C77_client_gone_refuted"
   ],
   "note": "Proved for all interleavings except the last sentence: the reply is used after its end if a nested call outlives the timer of a call that has its answer, and a call that fails uses its client even if the client was destroyed meanwhile (C77_dangling_refuted, C77_client_gone_refuted)."
  },
  {
   "property": "C78",
   "status": "partial",
   "theorems": [
    "C78_can_return_partial",
    "C78_bounded",
    "C78_timeout",
    "C78_no_early_timeout",
    "C78_destroyed_client",
    "C78_deadlock_refuted",
    "C78_no_event_loop_refuted",
    "C78_lost_reply_refuted",
    "C78_nested_blocks_refuted"
   ],
   "note": "Proved for careful histories, threads with event loops and calls along a ranking of threads; that replies come is up to the network. Refuted for calls of threads among each other, for client threads without event loop, for channels that are released during a call, and for calls around a nested call that waits."
  },
  {
   "property": "C79",
   "status": "partial",
   "theorems": [
    "C79_read_latest",
    "C79_handler_reads",
    "C79_received_reads",
    "C79_handlers",
    "C79_handler_order",
    "C79_all_received",
    "C79_notices",
    "C79_queued_reader_refuted",
    "C79_no_ub_partial",
    "C79_subscribe_refuted",
    "C79_self_deadlock_refuted",
    "C79_abort_deadlock_refuted",
    "C79_cross_deadlock_refuted",
    "C79_completes_partial"
   ],
   "note": "Proved for reads, handlers and queued slots in all interleavings. Undefined behaviour and waiting forever are excluded only for histories without subscriptions inside handlers and without data that cannot be deserialized; both are refuted otherwise, as is that queued slots read the message they are called for."
  },
  {
   "property": "C80",
   "status": "partial",
   "theorems": [
    "C80_written",
    "C80_valid",
    "C80_read",
    "C80_read_any",
    "C80_round_trip",
    "C80_nul_refuted",
    "C80_mark_refuted",
    "C80_lone_refuted",
    "C80_lone_keys_refuted",
    "C80_message_round_trip",
    "C80_message_valid",
    "C80_message_read",
    "C80_relay"
   ],
   "note": "Proved for all texts without U+0000 that do not begin with U+FEFF, which are exactly those that come back; refuted for the others and for lone surrogates. Whole messages of types that cannot hold a cycle of singular message fields. The conversions are those of Qt 5."
  },
  {
   "property": "C81",
   "status": "partial",
   "theorems": [
    "C81_native_message",
    "C81_http2_message",
    "C81_http2_encoded_refuted",
    "C81_http2_distinct"
   ],
   "note": "Proved for the native channel for texts as in C80, and for the HTTP/2 channel for exactly the messages of printable ASCII without percent signs; refuted for all others."
  },
  {
   "property": "C82",
   "status": "partial",
   "theorems": [
    "C82_text",
    "C82_trimmed",
    "C82_empty",
    "C82_comment_partial",
    "C82_slash_refuted",
    "C82_star_refuted",
    "C82_dollar_refuted",
    "C82_dollar_fatal_refuted",
    "C82_dollar_undefined_refuted"
   ],
   "note": "Proved for comments without dollar signs, asterisks before slashes and lines after the first that begin with a slash; refuted for the others."
  },
  {
   "property": "C83",
   "status": "partial",
   "theorems": [
    "C83_integer",
    "C83_range_refuted",
    "C83_double",
    "C83_double_undefined_refuted",
    "C83_read_integer",
    "C83_read_double",
    "C83_read_double_nearest",
    "C83_read_double_32",
    "C83_round",
    "C83_text_refuted",
    "C83_qml",
    "C83_qml_range_refuted",
    "C83_qml_not_finite",
    "C83_qml_hidden",
    "C83_uint64_refuted",
    "C83_qml_text",
    "C83_qml_text_refuted"
   ],
   "note": "Proved for numbers in range, and for reading as double within 53 bits; refuted otherwise: wrapped silently, undefined for doubles, rounded for uint64 in QML; texts are not accepted back."
  },
  {
   "property": "C84",
   "status": "partial",
   "theorems": [
    "C84_versions_partial",
    "C84_new_field",
    "C84_number_partial",
    "C84_widened_refuted",
    "C84_bool_refuted",
    "C84_list_refuted"
   ],
   "note": "Proved for all pairs of versions, except: negative int32 in a field that has become 64 bits wide (refuted), bool in place of int64 and uint64 (refuted for multiples of 2^32), numbers that become lists (refuted: the number is lost)."
  },
  {
   "property": "C85",
   "status": "partial",
   "theorems": [
    "C85_types_partial",
    "C85_length_partial",
    "C85_unbounded_refuted"
   ],
   "note": "Proved for types that do not contain themselves, and a bound by the length of the input without negative lengths; refuted for all types that contain themselves: ten bytes per nested call exhaust any stack."
  },
  {
   "property": "C86",
   "status": "partial",
   "theorems": [
    "C86_registered",
    "C86_not_asked",
    "C86_resolve_partial",
    "C86_collision_refuted",
    "C86_usable_partial",
    "C86_no_package_refuted",
    "C86_underscore_refuted",
    "C86_extra_refuted",
    "C86_values_partial",
    "C86_underscore_value_refuted",
    "C86_class_partial",
    "C86_class_refuted"
   ],
   "note": "Proved: what is registered where, and that it is found in any order if no two types of one place differ in the case of the first letter only; values of enumerations; the C++ name in the registration. Refuted: message Foo and enum foo, files without package, names that start with an underscore, extra namespaces of several parts, packages like a.b.a (does not compile with QML)."
  },
  {
   "property": "C87",
   "status": "partial",
   "theorems": [
    "C87_opens_partial",
    "C87_nested_refuted",
    "C87_argument",
    "C87_method",
    "C87_only"
   ],
   "note": "Proved for requests and responses of the top level, with the refusals, and that no other stream is opened for any registered types. Refuted: if the request or response is declared inside of another message, GrpcStream reports InvalidArgument whatever the argument is."
  },
  {
   "property": "C88",
   "status": "partial",
   "theorems": [
    "C88_declared_defined",
    "C88_access",
    "C88_constructor",
    "C88_overloads_partial",
    "C88_overloads_refuted",
    "C88_functions_partial",
    "C88_functions_refuted",
    "C88_keywords_partial",
    "C88_keywords_refuted",
    "C88_class_name",
    "C88_client_names",
    "C88_includes_partial",
    "C88_includes_refuted"
   ],
   "note": "Proved: declarations and definitions correspond, access, and exactly when overloads, keywords, hidden functions and includes go wrong. Refuted: calls named call, stream, qjsEngine, qmlEngine or like a keyword; streaming procedures that differ in the case of the first letter; includes of nested messages and of messages of other packages with folders."
  },
  {
   "property": "C89",
   "status": "partial",
   "theorems": [
    "C89_with_stream",
    "C89_signals",
    "C89_messages",
    "C89_announced_twice_refuted",
    "C89_null_refuted"
   ],
   "note": "Proved: returnValue and open stream go together, signals tell each change, each message of the stream is announced. Refuted: after the end of an old stream made the element forget its present one, messages are announced with null, and twice after it is enabled again."
  },
  {
   "property": "C90",
   "status": "partial",
   "theorems": [
    "C90_value_partial",
    "C90_assign_moved_refuted",
    "C90_equal_refuted"
   ],
   "note": "Proved for every program, except copy assignment to a moved-from status (refuted: null pointer) and comparison of statuses with one code and different messages (refuted: they are equal)."
  },
  {
   "property": "C91",
   "status": "partial",
   "theorems": [
    "C91_text_partial",
    "C91_text_refuted",
    "C91_relay_partial"
   ],
   "note": "Proved for messages that JSON can transport (the conditions of C60) and that have no null elements; the text is the same except for negative zeros in singular fields (refuted: they are read as zero)."
  },
  {
   "property": "C92",
   "status": "partial",
   "theorems": [
    "C92_runs_partial",
    "C92_as_declared_partial",
    "C92_unusable_refuted",
    "C92_exchange_partial",
    "C92_versions_partial"
   ],
   "note": "Proved for messages without a clash of names (C28), whose fields have a supported type (C62), without fields of Qt types; refuted for all others: there the serializer takes another value or throws."
  },
  {
   "property": "C93",
   "status": "partial",
   "theorems": [
    "C93_runs_partial",
    "C93_as_declared_partial",
    "C93_table_names",
    "C93_json_name_refuted",
    "C93_original_name_refuted",
    "C93_enum_names_refuted",
    "C93_exchange_partial"
   ],
   "note": "Proved under the conditions of C92, for JSON names without characters that need escape sequences and enumerators that differ in more than the case of the first letter, and for the values of C60_round_trip. Refuted: other JSON names are not those of the file, enumerators that begin with a small letter are written with a capital one and not understood as they are in the file, and the names of fields in the .proto file are not accepted."
  },
  {
   "property": "C94",
   "status": "partial",
   "theorems": [
    "C94_reads_partial",
    "C94_versions_partial",
    "C94_programs_partial"
   ],
   "note": "Proved for the values of C60_round_trip, if the reader's types have the integers and enumerators (others become 0 and -1, C60_number_refuted and C60_enum_refuted); for schemas, and for generated programs under the conditions of C93."
  },
  {
   "property": "C95",
   "status": "partial",
   "theorems": [
    "C95_blocking_partial",
    "C95_reply_partial",
    "C95_stream_partial",
    "C95_failed"
   ],
   "note": "Proved over HTTP/2 with the binary serializer, under the conditions of C92 (usable files), C71 (credentials do not replace headers), C41 (the target is not deleted during the call) and, for streams, C33 (no piece of data ends in a header)."
  },
  {
   "property": "C96",
   "status": "partial",
   "theorems": [
    "C96_no_exception",
    "C96_returns_partial",
    "C96_reply_partial",
    "C96_stream_partial",
    "C96_hang_refuted",
    "C96_shift_refuted",
    "C96_over_read_refuted",
    "C96_stream_hang_refuted"
   ],
   "note": "No exception, one status, matching error signal and a well-typed target are proved for all answers with which the call ends and its behaviour is defined. Refuted: a frame of at most fifteen bytes keeps any call from returning, ten bytes make any client shift too far, announced lengths are read beyond the end, and a length of 2^31 in a stream is an endless loop."
  },
  {
   "property": "C97",
   "status": "partial",
   "theorems": [
    "C97_round_trip_partial",
    "C97_same_bytes",
    "C97_from_others_partial",
    "C97_to_others",
    "C97_any_bytes"
   ],
   "note": "Proved for all schemas and messages with Qt values that are sent faithfully (C42), as singular fields at any place. Lists and maps of Qt types have no handlers (refuted in C62). URLs and images by the hypothesis that Qt reads back what it writes."
  },
  {
   "property": "C98",
   "status": "partial",
   "theorems": [
    "C98_runs_partial",
    "C98_as_declared_partial",
    "C98_unusable_refuted",
    "C98_exchange_partial",
    "C98_others_partial"
   ],
   "note": "Proved for all files whose fields have handlers and whose names do not clash; other files do not work (C98_unusable_refuted): lists and maps of Qt types, unregistered types, clashing names. Values as in C97."
  },
  {
   "property": "C99",
   "status": "partial",
   "theorems": [
    "C99_blocking_partial",
    "C99_reply_partial",
    "C99_stream_partial"
   ],
   "note": "Proved for HTTP/2, for blocking calls, replies, callbacks and streams. Changes of the types of fields are left out (C84), as are answers on which C95 does not hold (pieces of data that end in a header, C33)."
  },
  {
   "property": "C100",
   "status": "proved",
   "theorems": [
    "C100_exactly_once",
    "C100_at_once",
    "C100_success",
    "C100_nothing_else"
   ],
   "note": "Proved for HTTP/2. Calls that JavaScript code starts without a channel are not in it (undefined behaviour, C68_no_channel_refuted)."
  },
  {
   "property": "C101",
   "status": "partial",
   "theorems": [
    "C101_name",
    "C101_name_refuted",
    "C101_blocking_partial",
    "C101_reply_partial",
    "C101_stream_partial",
    "C101_failed",
    "C101_stream_failed"
   ],
   "note": "Missing: as C92 (values that the formats of the two programs cannot both hold), targets that are deleted while a call waits (C41). If the user aborts or destroys a reply or stream, what it has reported is a beginning of that. The name of the procedure is wrong for hand-written clients whose service name contains a place of QString::arg (C101_name_refuted); names from .proto files contain none. The gRPC library itself is assumed to carry the bytes."
  },
  {
   "property": "C102",
   "status": "partial",
   "theorems": [
    "C102_blocking_partial",
    "C102_reply_partial",
    "C102_stream_partial"
   ],
   "note": "Missing: as C92_versions (fields whose types change between the versions, see C84) and as C101 (targets that are deleted while a call waits). What happens for procedures that the server does not have is C101_failed."
  },
  {
   "property": "C103",
   "status": "partial",
   "theorems": [
    "C103_contained_partial",
    "C103_careful_partial",
    "C103_after_decrement_refuted",
    "C103_after_plus_refuted",
    "C103_after_increment_refuted",
    "C103_negative_refuted",
    "C103_overflow_refuted",
    "C103_after_assign_refuted"
   ],
   "note": "Proved for careful histories: counts not negative (for -= count + container size an int), and no use of an iterator after its exception until it is assigned. Refuted for the rest: a failed operation leaves the count changed, so later moves leave the container (C103_after_*_refuted); negative counts and large counts of -= are not noticed. Missing: the conversion to an unchecked const_iterator reference."
  },
  {
   "property": "C104",
   "status": "partial",
   "theorems": [
    "C104_same_text",
    "C104_any_text",
    "C104_round_trip_partial",
    "C104_one_result",
    "C104_to_others_partial",
    "C104_digits_refuted",
    "C104_same_reader_partial",
    "C104_exchange_partial"
   ],
   "note": "Same text and same outcome of reading proved for all messages and all texts (up to rectangles that overflow, which is undefined behaviour). The round trip, also between programs generated from the same files in different ways, is proved for values sent faithfully (C42) and what JSON transports (C60); missing: lists and maps of Qt types (C62). That the names in the tables are those of the files is C105. Refuted for vectors, quaternions and matrices: JSON keeps six digits of their members (C104_digits_refuted)."
  },
  {
   "property": "C105",
   "status": "partial",
   "theorems": [
    "C105_runs_partial",
    "C105_as_declared_partial",
    "C105_unusable_refuted",
    "C105_any_text_partial",
    "C105_exchange_partial"
   ],
   "note": "Proved for messages that can be serialized (C98) and JSON names that are not changed by C++ string literals (C93); refuted for messages that cannot (C105_unusable_refuted). The exchange is proved for values sent faithfully and what JSON transports (C104)."
  }
 ]
}