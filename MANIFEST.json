{
 "claims": [
  {
   "property": "C01",
   "status": "proved",
   "theorems": [
    "C01_varint_roundtrip",
    "C01_varint_all_u64",
    "C01_varint_format",
    "C01_varint_prefix_free",
    "C01_top_bit_refuted",
    "C01_read_exact",
    "C01_read_short"
   ],
   "note": "C01_varint_all_u64 is the exact behaviour for every u64 (v mod 2^63); the naive expectation, that every u64 survives, is refuted (C01_top_bit_refuted)."
  },
  {
   "property": "C02",
   "status": "proved",
   "theorems": [
    "C02_string_roundtrip",
    "C02_string_limit",
    "C02_string_truncated",
    "C02_read_exact",
    "C02_read_too_big"
   ],
   "note": ""
  },
  {
   "property": "C03",
   "status": "proved",
   "theorems": [
    "C03_scalar_columns"
   ],
   "note": ""
  },
  {
   "property": "C04",
   "status": "proved",
   "theorems": [
    "C04_column_roundtrip",
    "C04_normal_identity"
   ],
   "note": ""
  },
  {
   "property": "C05",
   "status": "proved",
   "theorems": [
    "C05_fixed_string",
    "C05_fixed_string_unchanged",
    "C05_byte_arrays"
   ],
   "note": ""
  },
  {
   "property": "C06",
   "status": "proved",
   "theorems": [
    "C06_low_cardinality_layout",
    "C06_low_cardinality_roundtrip",
    "C06_key_equality"
   ],
   "note": ""
  },
  {
   "property": "C07",
   "status": "proved",
   "theorems": [
    "C07_row_count",
    "C07_never_more_rows",
    "C07_fewer_only_without_keys",
    "C07_low_cardinality_refuted"
   ],
   "note": "Exact count outside top-level LowCardinality (C07_row_count), never more (C07_never_more_rows), and fewer only if the bytes hold a header without keys (C07_fewer_only_without_keys). The naive claim without the exception is refuted (C07_low_cardinality_refuted)."
  },
  {
   "property": "C08",
   "status": "proved",
   "theorems": [
    "C08_no_panic",
    "C08_panics_iff",
    "C08_fixed_string_refuted",
    "C08_array_offsets_refuted",
    "C08_map_offsets_refuted",
    "C08_map_keys_refuted"
   ],
   "note": "C08_panics_iff characterises the panics for every valid type of addressable FixedString lengths; the naive claim (never panics) is refuted by concrete inputs and, for longer FixedStrings, in general (_refuted theorems)."
  },
  {
   "property": "C09",
   "status": "proved",
   "theorems": [
    "C09_incremental",
    "C09_truncated_is_eof",
    "C09_locality",
    "C09_truncation",
    "C09_terminates"
   ],
   "note": ""
  },
  {
   "property": "C10",
   "status": "proved",
   "theorems": [
    "C10_rows",
    "C10_array",
    "C10_map",
    "C10_dictionary",
    "C10_nested"
   ],
   "note": ""
  },
  {
   "property": "C11",
   "status": "proved",
   "theorems": [
    "C11_print_parse",
    "C11_plain_names",
    "C11_reparse_stable",
    "C11_injective",
    "C11_enum_names_refuted"
   ],
   "note": "The statement excludes enum variant names with the parser's special characters; C11_enum_names_refuted shows the exclusion is necessary."
  },
  {
   "property": "C12",
   "status": "proved",
   "theorems": [
    "C12_panics_iff",
    "C12_otherwise_a_type_or_an_error",
    "C12_terminates",
    "C12_tidy_no_panic",
    "C12_stray_parenthesis_refuted",
    "C12_lone_quote_refuted",
    "C12_enum_quote_refuted"
   ],
   "note": "C12_panics_iff is exact, C12_terminates and C12_otherwise_a_type_or_an_error cover the rest; C12_tidy_no_panic gives a simple sufficient condition. The naive claim (never panics) is refuted by three concrete texts."
  },
  {
   "property": "C13",
   "status": "proved",
   "theorems": [
    "C13_validated",
    "C13_tuple_too_long_refuted",
    "C13_tuple_too_short_refuted",
    "C13_map_lengths_refuted",
    "C13_nullable_geo_refuted",
    "C13_written_iff",
    "C13_comes_back_iff",
    "C13_tuples_are_full"
   ],
   "note": "C13_written_iff and C13_comes_back_iff are exact; the naive claim (validated means sendable) is refuted for tuples of the wrong length, maps of unequal lengths and NULL for a Nullable geo (_refuted)."
  },
  {
   "property": "C14",
   "status": "proved",
   "theorems": [
    "C14_rejection",
    "C14_panics_iff",
    "C14_rejection_refuted"
   ],
   "note": "C14_panics_iff is the exact condition; the naive claim (never a panic) is refuted (C14_rejection_refuted)."
  },
  {
   "property": "C15",
   "status": "proved",
   "theorems": [
    "C15_default_valid_iff",
    "C15_default_roundtrip",
    "C15_default_sendable_iff",
    "C15_enum_default_refuted",
    "C15_default_is"
   ],
   "note": "C15_default_valid_iff, C15_default_roundtrip and C15_default_sendable_iff cover every valid type; the naive claim is refuted for enums without a 0 variant."
  },
  {
   "property": "C16",
   "status": "proved",
   "theorems": [
    "C16_block_roundtrip"
   ],
   "note": ""
  },
  {
   "property": "C17",
   "status": "proved",
   "theorems": [
    "C17_info_read_back",
    "C17_info_roundtrip",
    "C17_overflow_flag_refuted",
    "C17_info_without_fields",
    "C17_end_of_data",
    "C17_info_fields",
    "C17_unknown_field"
   ],
   "note": "C17_info_read_back is the exact behaviour; a cleared overflow flag comes back set (C17_overflow_flag_refuted), because false is written as 2 and read as non-zero."
  },
  {
   "property": "C18",
   "status": "proved",
   "theorems": [
    "C18_no_ragged_block",
    "C18_ragged_fails"
   ],
   "note": ""
  },
  {
   "property": "C19",
   "status": "proved",
   "theorems": [
    "C19_borrowing",
    "C19_taking",
    "C19_consuming",
    "C19_no_columns_refuted",
    "C19_ragged_borrowing",
    "C19_ragged_taking",
    "C19_ragged_consuming",
    "C19_declared_rows_refuted",
    "C19_taking_panics_iff",
    "C19_never_panics_iff",
    "C19_received_countable",
    "C19_huge_count_refuted"
   ],
   "note": "Proved for blocks with at least one column, as stated; C19_no_columns_refuted shows that the iterators disagree on a block with rows but no columns, C19_huge_count_refuted that such a block from the wire can make the taking iterator panic."
  },
  {
   "property": "C20",
   "status": "proved",
   "theorems": [
    "C20_any_chunking",
    "C20_compressed_block"
   ],
   "note": ""
  },
  {
   "property": "C21",
   "status": "proved",
   "theorems": [
    "C21_accepted_frames",
    "C21_corruption_detected",
    "C21_rejected_is_final",
    "C21_rejected_block",
    "C21_corruption_reported_refuted"
   ],
   "note": ""
  },
  {
   "property": "C22",
   "status": "proved",
   "theorems": [
    "C22_string_reads_back",
    "C22_never_breaks_out",
    "C22_ascii"
   ],
   "note": ""
  },
  {
   "property": "C23",
   "status": "proved",
   "theorems": [
    "C23_template",
    "C23_plain_query_unchanged",
    "C23_builder",
    "C23_no_dollar_unchanged"
   ],
   "note": ""
  },
  {
   "property": "C24",
   "status": "proved",
   "theorems": [
    "C24_split",
    "C24_trim",
    "C24_statements_end_in_semicolon",
    "C24_no_separator_no_split",
    "C24_script_recovered",
    "C24_no_semicolon_one_statement"
   ],
   "note": ""
  },
  {
   "property": "C25",
   "status": "proved",
   "theorems": [
    "C25_decimal_value_iff",
    "C25_all_decimals_refuted"
   ],
   "note": ""
  },
  {
   "property": "C26",
   "status": "proved",
   "theorems": [
    "C26_select",
    "C26_every_item_once",
    "C26_distinct_last_call_wins",
    "C26_distinct_kept"
   ],
   "note": ""
  },
  {
   "property": "C27",
   "status": "proved",
   "theorems": [
    "C27_sent_in_order",
    "C27_one_in_flight",
    "C27_delivery",
    "C27_streams"
   ],
   "note": ""
  },
  {
   "property": "C28",
   "status": "proved",
   "theorems": [
    "C28_error_is_last",
    "C28_then_end_of_stream",
    "C28_next_query_is_sent"
   ],
   "note": ""
  },
  {
   "property": "C29",
   "status": "proved",
   "theorems": [
    "C29_no_query_forgotten",
    "C29_requests_are_taken",
    "C29_callers_while_alive",
    "C29_callers_when_ended"
   ],
   "note": ""
  },
  {
   "property": "C30",
   "status": "proved",
   "theorems": [
    "C30_whole_packets",
    "C30_exactly_what_is_lost",
    "C30_every_loss_is_possible",
    "C30_nothing_else_is_lost",
    "C30_request_mid_packet_refuted",
    "C30_phantom_end_of_stream_refuted"
   ],
   "note": "Exact in both directions (C30_exactly_what_is_lost, C30_every_loss_is_possible, C30_nothing_else_is_lost). The naive claim, that packets are always read whole, is refuted: receive_packet is not cancel-safe inside select! (C30_request_mid_packet_refuted, C30_phantom_end_of_stream_refuted)."
  },
  {
   "property": "C31",
   "status": "proved",
   "theorems": [
    "C31_one_block_per_batch",
    "C31_block_holds_the_rows",
    "C31_succeeds",
    "C31_refusal",
    "C31_failure"
   ],
   "note": ""
  },
  {
   "property": "C32",
   "status": "proved",
   "theorems": [
    "C32_query",
    "C32_collect_ok",
    "C32_collect_error",
    "C32_one_and_opt",
    "C32_execute"
   ],
   "note": ""
  },
  {
   "property": "C33",
   "status": "proved",
   "theorems": [
    "C33_mutual_exclusion",
    "C33_live_exclusion",
    "C33_lost_connection_grants",
    "C33_dead_release",
    "C33_lost_connection_refuted",
    "C33_granted_iff_free",
    "C33_refused_changes_nothing",
    "C33_release_makes_available",
    "C33_independent_names",
    "C33_abandoned_attempt_refuted",
    "C33_statements",
    "C33_any_name_refuted"
   ],
   "note": "C33_abandoned_attempt_refuted shows the last sentence of the statement: an attempt dropped after the server executed its CREATE leaves the lock taken until a reset."
  },
  {
   "property": "C34",
   "status": "proved",
   "theorems": [
    "C34_exclusive",
    "C34_takes_the_lock_by_force",
    "C34_release_lets_a_third_in",
    "C34_slow_migration_refuted",
    "C34_release_steals_refuted"
   ],
   "note": "C34_exclusive with its proviso; without it two run, in every state (C34_takes_the_lock_by_force, C34_release_lets_a_third_in). The naive claim is refuted on concrete runs (C34_slow_migration_refuted, C34_release_steals_refuted)."
  },
  {
   "property": "C35",
   "status": "proved",
   "theorems": [
    "C35_accumulation_is_sum",
    "C35_any_order",
    "C35_commutative",
    "C35_associative",
    "C35_identity"
   ],
   "note": ""
  },
  {
   "property": "C36",
   "status": "proved",
   "theorems": [
    "C36_date",
    "C36_datetime",
    "C36_datetime64",
    "C36_datetime64_back",
    "C36_datetime64_precision",
    "C36_chrono_sql",
    "C36_chrono_from_sql",
    "C36_last_second"
   ],
   "note": ""
  },
  {
   "property": "C37",
   "status": "proved",
   "theorems": [
    "C37_words_roundtrip",
    "C37_words_value",
    "C37_reinterpret",
    "C37_unsigned_order",
    "C37_signed_order_iff",
    "C37_hex_value"
   ],
   "note": ""
  },
  {
   "property": "C38",
   "status": "proved",
   "theorems": [
    "C38_decompose",
    "C38_defined_iff"
   ],
   "note": ""
  },
  {
   "property": "C39",
   "status": "proved",
   "theorems": [
    "C39_read",
    "C39_read_once",
    "C39_read_name_missing",
    "C39_out_of_range",
    "C39_out_of_range_refuted",
    "C39_read_panics_iff",
    "C39_get",
    "C39_set_replaces",
    "C39_set_appends",
    "C39_set_then_get",
    "C39_set_panics_iff",
    "C39_set_empty_name_refuted",
    "C39_send"
   ],
   "note": "Exact behaviour, including the panics at position = length and after a take; twelve theorems."
  },
  {
   "property": "C40",
   "status": "proved",
   "theorems": [
    "C40_packets",
    "C40_hello_at_every_revision",
    "C40_hello_unread_iff",
    "C40_data_packets",
    "C40_unknown_packet",
    "C40_terminates",
    "C40_consumes_the_packet",
    "C40_incremental",
    "C40_hello_boundary_refuted",
    "C40_log_packet_panics",
    "C40_nested_exception_not_read"
   ],
   "note": "All packet kinds, hello at every revision (C40_hello_at_every_revision, C40_hello_unread_iff), termination, exact consumption and split-independence for arbitrary bytes. The naive claim is refuted at the three boundary revisions (C40_hello_boundary_refuted); C40_log_packet_panics and C40_nested_exception_not_read are the other two exceptions."
  },
  {
   "property": "C41",
   "status": "proved",
   "theorems": [
    "C41_query_packet",
    "C41_client_query",
    "C41_hello_packet",
    "C41_data_packet"
   ],
   "note": ""
  },
  {
   "property": "C42",
   "status": "proved",
   "theorems": [
    "C42_conventions",
    "C42_camel",
    "C42_failures",
    "C42_distinct",
    "C42_pascal_collision_refuted",
    "C42_lowercase_refuted",
    "C42_rule_names"
   ],
   "note": "Exact output and exact failures of every rule; the collisions under PascalCase/camelCase and the fact that 'lowercase' changes nothing are shown by _refuted theorems."
  },
  {
   "property": "C43",
   "status": "proved",
   "theorems": [
    "C43_by_name",
    "C43_roundtrip",
    "C43_plain_faithful",
    "C43_plain_exact",
    "C43_nested_exact",
    "C43_flattened_exact",
    "C43_plain_no_panic",
    "C43_no_panic",
    "C43_unknown_column_refuted",
    "C43_extra_column_refuted",
    "C43_absent_nested_refuted",
    "C43_skip_deserializing_refuted",
    "C43_nested_hint_refuted",
    "C43_shared_flatten_refuted"
   ],
   "note": "Interpreter of the generated code over arbitrary declarations (plain, nested, flatten, default, skip, arbitrarily deep). The _refuted theorems show what a user might expect in addition and does not hold: unknown columns are not ignored, an absent nested field loops, nested hints come from the outer struct, flattened structs cannot share a column."
  },
  {
   "property": "C44",
   "status": "proved",
   "theorems": [
    "C44_roundtrip",
    "C44_end_to_end",
    "C44_unit_row",
    "C44_no_panic",
    "C44_nested_option_refuted",
    "C44_vec_tuple_low_cardinality_refuted",
    "C44_byte_vector_in_string_refuted",
    "C44_byte_vector_in_string_array_refuted",
    "C44_uint8_as_int8_refuted"
   ],
   "note": "C44_roundtrip, C44_end_to_end (through the wire), C44_no_panic; types with conversions of the user's own (RUser) are covered wherever those conversions are faithful (C44_user_nonvacuous); the pairings excluded by the statement are refuted one by one."
  },
  {
   "property": "C45",
   "status": "proved",
   "theorems": [
    "C45_symmetric",
    "C45_transitive",
    "C45_reflexive_iff",
    "C45_hash_iff",
    "C45_no_geo",
    "C45_hash_injective",
    "C45_hash_refuted",
    "C45_reflexive_refuted"
   ],
   "note": "Exact characterization; C45_hash_refuted and C45_reflexive_refuted show that the Eq/Hash contract itself is broken for points."
  },
  {
   "property": "C46",
   "status": "proved",
   "theorems": [
    "C46_container_reads_back",
    "C46_exactly_without_singletons",
    "C46_injective",
    "C46_singleton_tuple_refuted",
    "C46_geometry_refuted",
    "C46_point_text"
   ],
   "note": ""
  },
  {
   "property": "C47",
   "status": "proved",
   "theorems": [
    "C47_prefix_roundtrip",
    "C47_prefix_exact",
    "C47_prefix_bytes",
    "C47_nullable_low_cardinality_mismatch"
   ],
   "note": ""
  },
  {
   "property": "C48",
   "status": "proved",
   "theorems": [
    "C48_progress_attribution"
   ],
   "note": ""
  },
  {
   "property": "C49",
   "status": "proved",
   "theorems": [
    "C49_in_flight_or_ended",
    "C49_own_query_iff",
    "C49_late_data_is_sent",
    "C49_foreign_data_refuted"
   ],
   "note": "Exact (C49_own_query_iff, C49_late_data_is_sent). The naive claim, that data only goes out during its own query, is refuted (C49_foreign_data_refuted)."
  },
  {
   "property": "C50",
   "status": "proved",
   "theorems": [
    "C50_runs_in_order_under_the_lock",
    "C50_refused",
    "C50_statements",
    "C50_cluster_statements",
    "C50_placeholders",
    "C50_database_name_refuted",
    "C50_history_row",
    "C50_history_no_panic",
    "C50_lock_statements",
    "C50_history_values"
   ],
   "note": "C50_database_name_refuted shows that the proviso on database names is needed."
  },
  {
   "property": "C51",
   "status": "proved",
   "theorems": [
    "C51_block_local",
    "C51_truncated_fails",
    "C51_terminates",
    "C51_incremental",
    "C51_truncated_is_eof"
   ],
   "note": ""
  },
  {
   "property": "C52",
   "status": "proved",
   "theorems": [
    "C52_complete_while_alive",
    "C52_nothing_received_is_lost",
    "C52_lost_connection_ends_silently",
    "C52_truncated_refuted"
   ],
   "note": "Both halves are general. The naive claim, that a result ending without an error is complete, is refuted (C52_truncated_refuted)."
  },
  {
   "property": "C53",
   "status": "proved",
   "theorems": [
    "C53_held_up_only_by_a_full_stream",
    "C53_reading_releases",
    "C53_blocked_while_full",
    "C53_unread_stream_blocks_everyone_refuted"
   ],
   "note": "Exact condition (C53_held_up_only_by_a_full_stream, C53_reading_releases, C53_blocked_while_full). The naive claim, that callers never block each other, is refuted (C53_unread_stream_blocks_everyone_refuted)."
  },
  {
   "property": "C54",
   "status": "proved",
   "theorems": [
    "C54_failed",
    "C54_sent_when_ok",
    "C54_later_exception_reaches_nobody",
    "C54_rejected_insert_is_ok_refuted"
   ],
   "note": "C54_sent_when_ok and C54_later_exception_reaches_nobody. The naive claim, that Ok means accepted, is refuted (C54_rejected_insert_is_ok_refuted)."
  },
  {
   "property": "C55",
   "status": "proved",
   "theorems": [
    "C55_waits_for_the_server",
    "C55_failed_insert_sends_no_end",
    "C55_open_insert_blocks",
    "C55_failed_insert_blocks_connection_refuted"
   ],
   "note": "C55_failed_insert_sends_no_end, C55_open_insert_blocks. The naive claim, that a failed insert leaves the connection usable, is refuted (C55_failed_insert_blocks_connection_refuted)."
  },
  {
   "property": "C56",
   "status": "proved",
   "theorems": [
    "C56_bad_row_ends_connection"
   ],
   "note": "Proved for every such batch. This is the opposite of what the log message says."
  },
  {
   "property": "C57",
   "status": "proved",
   "theorems": [
    "C57_rendering_panics_iff"
   ],
   "note": ""
  },
  {
   "property": "C58",
   "status": "proved",
   "theorems": [
    "C58_to_sql_same_number",
    "C58_from_sql_same_number",
    "C58_from_sql_accepts",
    "C58_from_sql_other",
    "C58_roundtrip",
    "C58_to_sql_panics_iff",
    "C58_to_sql_accepts",
    "C58_to_sql_other"
   ],
   "note": ""
  },
  {
   "property": "C59",
   "status": "proved",
   "theorems": [
    "C59_panics_iff",
    "C59_never_an_error",
    "C59_exact",
    "C59_rules",
    "C59_empty_first_refuted"
   ],
   "note": ""
  },
  {
   "property": "C60",
   "status": "proved",
   "theorems": [
    "C60_decoded_values",
    "C60_reading_never_panics"
   ],
   "note": ""
  },
  {
   "property": "C61",
   "status": "proved",
   "theorems": [
    "C61_columns_read",
    "C61_columns_written",
    "C61_prefixes",
    "C61_fixed_string_padding",
    "C61_shared_dictionaries_read",
    "C61_shared_null_refuted"
   ],
   "note": ""
  },
  {
   "property": "C62",
   "status": "proved",
   "theorems": [
    "C62_blocks_read",
    "C62_blocks_written"
   ],
   "note": ""
  },
  {
   "property": "C63",
   "status": "proved",
   "theorems": [
    "C63_frames_read",
    "C63_frames_written"
   ],
   "note": ""
  },
  {
   "property": "C64",
   "status": "proved",
   "theorems": [
    "C64_accepted",
    "C64_accepts",
    "C64_one_meaning",
    "C64_field_reported_iff",
    "C64_unquoted_value_refuted",
    "C64_struct_rename_refuted",
    "C64_skip_twice_refuted",
    "C64_camel_case_refuted"
   ],
   "note": "Both directions (C64_accepted, C64_accepts). Parsing of the strings inside the attributes (paths, where clauses, types: syn) enters as three arbitrary functions. The _refuted theorems show what is silently ignored or reported although harmless."
  },
  {
   "property": "C65",
   "status": "proved",
   "theorems": [
    "C65_points_and_lines",
    "C65_polygon_roundtrip",
    "C65_new_polygons_are_closed",
    "C65_multi_polygon_roundtrip",
    "C65_read_polygon_is_closed",
    "C65_ring_as_polygon",
    "C65_sent",
    "C65_received",
    "C65_through_a_column",
    "C65_nan_never_closed_refuted"
   ],
   "note": "Coordinates are bit patterns compared as IEEE numbers. C65_nan_never_closed_refuted shows why the proviso on NaN is needed."
  },
  {
   "property": "C66",
   "status": "proved",
   "theorems": [
    "C66_broken_is_final",
    "C66_broken_refuses",
    "C66_not_broken_accepts",
    "C66_connected",
    "C66_failed_setup_reported",
    "C66_lost_setup_reported",
    "C66_is_valid_iff",
    "C66_dead_connection_handed_out_refuted",
    "C66_blocked_connection_not_broken_refuted"
   ],
   "note": "The pool itself (bb8) is outside. C66_dead_connection_handed_out_refuted: connect can return a connection that died during its set-up; C66_blocked_connection_not_broken_refuted: a connection blocked by a failed insert is not reported broken and its validity check never returns."
  },
  {
   "property": "C67",
   "status": "proved",
   "theorems": [
    "C67_nothing_before_hello",
    "C67_negotiated",
    "C67_server_sees",
    "C67_packets_from_bytes",
    "C67_connected_means_greeted",
    "C67_first_query",
    "C67_login_reason_lost_refuted",
    "C67_connected_to_nobody_refuted"
   ],
   "note": "Composition of the hello exchange, the byte reader, the packet codec and the connection task. C67_login_reason_lost_refuted: a login refused with an exception ends in a generic protocol error; C67_connected_to_nobody_refuted: connect can succeed although the connection broke right after its settings query was sent."
  },
  {
   "property": "C68",
   "status": "proved",
   "theorems": [
    "C68_valid_types",
    "C68_accepted_values",
    "C68_scale_zero_refuted"
   ],
   "note": "Exact (iff) against rules in ValidateSpec.v. C68_scale_zero_refuted: Decimal and DateTime64 of scale 0, legal in ClickHouse, are refused."
  },
  {
   "property": "C69",
   "status": "proved",
   "theorems": [
    "C69_grammar",
    "C69_unambiguous",
    "C69_language_is_safe",
    "C69_trailing_space",
    "C69_leading_space_refused",
    "C69_named_tuple_refuted",
    "C69_unknown_types_refuted",
    "C69_trailing_comma"
   ],
   "note": "C69_grammar is exact in both directions; the two _refuted theorems are findings about types the server sends that cannot be read."
  },
  {
   "property": "C70",
   "status": "proved",
   "theorems": [
    "C70_every_query_is_sent",
    "C70_every_query_is_ended",
    "C70_every_reader_gets_its_answer"
   ],
   "note": "Fairness is in the hypotheses (LivenessSpec.v): the connection stays up, the server ends each query, requests are taken again and again, the task goes on when the channel it waits for has room, callers read or drop. C53 shows what happens when a caller does neither."
  },
  {
   "property": "C71",
   "status": "proved",
   "theorems": [
    "C71_rows_come_back",
    "C71_structs_come_back",
    "C71_plain_structs_come_back"
   ],
   "note": "C71_rows_come_back is for any row type; C71_structs_come_back for derived structs with nested and flattened fields; C71_plain_structs_come_back spells the conditions out for plain fields. Values in canonical form (C13); a block is compressed into one frame, which must be small enough."
  },
  {
   "property": "C72",
   "status": "proved",
   "theorems": [
    "C72_heredoc",
    "C72_heredoc_is_opaque"
   ],
   "note": "parse_str of the crate compiler_tools is a parameter; that the tokenizer keeps a here-document as one token is its declaration in query_parser.rs."
  },
  {
   "property": "C73",
   "status": "proved",
   "theorems": [
    "C73_structure",
    "C73_string_argument",
    "C73_after_minus_refuted",
    "C73_adjacent_refuted"
   ],
   "note": "SqlLex.v specifies the server's lexer (quotes, comments, words, characters; a dollar sign outside quotes ends what is specified). The text of a floating-point number is Rust's formatter's: only that it stays within its place is assumed (fmt_ok). The two _refuted theorems are findings."
  },
  {
   "property": "C74",
   "status": "proved",
   "theorems": [
    "C74_plain_errors",
    "C74_plain_outcome",
    "C74_errors",
    "C74_outcome",
    "C74_conversion_errors",
    "C74_utf8_refuted"
   ],
   "note": "C74_plain_errors and C74_plain_outcome for structs of plain fields (the accusation is true); C74_errors for all structs whose conversions are the crate's (a user's own conversion may return any error); C74_utf8_refuted: invalid UTF-8 is reported without a column."
  },
  {
   "property": "C75",
   "status": "proved",
   "theorems": [
    "C75_close",
    "C75_monotone",
    "C75_injective",
    "C75_integers",
    "C75_exact",
    "C75_panics",
    "C75_not_nearest_refuted"
   ],
   "note": "Proved through Flocq; the statements are about integers and rationals. Refutation C75_not_nearest_refuted records that the conversion is not correctly rounded."
  },
  {
   "property": "C76",
   "status": "proved",
   "theorems": [
    "C76_where_clause",
    "C76_enough",
    "C76_compiles",
    "C76_associated",
    "C76_self",
    "C76_received_only_refuted",
    "C76_flatten_refuted",
    "C76_vec_refuted",
    "C76_phantom_refuted",
    "C76_nested_refuted"
   ],
   "note": "Type checking is a judgement over the crate's own implementations and given facts (BoundSpec.implements), not rustc; bounds that syn leaves unparsed are out. The _refuted theorems state where the derived bounds fall short."
  },
  {
   "property": "C77",
   "status": "proved",
   "theorems": [
    "C77_reads",
    "C77_complete",
    "C77_exactly",
    "C77_maps"
   ],
   "note": "Rules in ReadSpec.v, one per pairing, independent of the conversion functions except for Decimal and chrono, whose meaning is C58 and C36. Soundness, completeness, and for types without maps an exact equivalence. Key equality of maps is structural."
  },
  {
   "property": "C78",
   "status": "proved",
   "theorems": [
    "C78_sent"
   ],
   "note": "An exact equivalence between to_sql and the inductive relation `sent` (ToSqlSpec.v). Decimal and chrono values are sent as C58 and C36 say."
  },
  {
   "property": "C79",
   "status": "proved",
   "theorems": [
    "C79_date",
    "C79_datetime",
    "C79_datetime64",
    "C79_odd_offsets_refuted",
    "C79_far_future_refuted",
    "C79_uuid",
    "C79_ipv4",
    "C79_ipv6",
    "C79_int256",
    "C79_negative_int256_refuted"
   ],
   "note": "chrono's, std's and uuid's formatting are modelled after their documentation (Calendar.v); the offset of a zone at an instant is a parameter. Offsets with seconds (zones before standard time), years after 9999 and negative Int256 are refuted."
  },
  {
   "property": "C80",
   "status": "proved",
   "theorems": [
    "C80_date",
    "C80_date_range_refuted",
    "C80_datetime_read",
    "C80_datetime",
    "C80_malformed",
    "C80_datetime64_read",
    "C80_datetime64",
    "C80_dynamic",
    "C80_precision_refuted",
    "C80_zone_refuted"
   ],
   "note": "chrono's parser is a parameter assumed to read every RFC 3339 instant; a parser meeting the assumption is constructed. Loss of zone, precision and the wrap of dates are refuted."
  },
  {
   "property": "C81",
   "status": "proved",
   "theorems": [
    "C81_roundtrip",
    "C81_optional",
    "C81_read",
    "C81_write_error",
    "C81_fixed_string_refuted"
   ],
   "note": "serde_json and T's serde implementations are a parameter; a text longer than a FixedString column is cut silently and may then read as another value [C81_fixed_string_refuted]"
  },
  {
   "property": "C82",
   "status": "proved",
   "theorems": [
    "C82_accepted",
    "C82_columns",
    "C82_roundtrip",
    "C82_written",
    "C82_read",
    "C82_own_rows",
    "C82_converted",
    "C82_converted_roundtrip",
    "C82_deny_unusable_refuted",
    "C82_no_panic",
    "C82_deny_refuted"
   ],
   "note": "C82_accepted, C82_columns, C82_roundtrip, C82_written, C82_read, C82_own_rows, C82_converted(_roundtrip). Findings: deny_unknown_fields either does not compile (C82_deny_unusable_refuted) or, with a flattened field, denies nothing (C82_deny_refuted)."
  },
  {
   "property": "C83",
   "status": "proved",
   "theorems": [
    "C83_server_has_the_rows",
    "C83_rows_come_back",
    "C83_structs_come_back"
   ],
   "note": "C83_server_has_the_rows, C83_rows_come_back, C83_structs_come_back: composition of C17, C18, C45, C48, C13 and C68 against a specification of the wire format that allows every encoding (StoreSpec.v, BlockWire.v, FrameWire.v, WireSpec.v)."
  },
  {
   "property": "C84",
   "status": "proved",
   "theorems": [
    "C84_text_read",
    "C84_ill_formed",
    "C84_text_written",
    "C84_string_field",
    "C84_string_written",
    "C84_one_reading",
    "C84_code_points"
   ],
   "note": "C84_text_read, C84_ill_formed, C84_text_written, C84_string_field, C84_string_written, C84_one_reading, C84_code_points; String::from_utf8 is std's, modelled in Utf8.v and proved equal to the table in Utf8Spec.v."
  },
  {
   "property": "C85",
   "status": "proved",
   "theorems": [
    "C85_each_caller_its_answer",
    "C85_collects_its_rows"
   ],
   "note": "Composes the session (C67), the delivery (C27), the wire format of blocks (C83) and the row API (C32). Tested against mutants of the connection's dispatch."
  },
  {
   "property": "C86",
   "status": "proved",
   "theorems": [
    "C86_block_reservations",
    "C86_column_reservations",
    "C86_how_many",
    "C86_how_many_read",
    "C86_frames",
    "C86_frame_exact",
    "C86_in_proportion_refuted",
    "C86_fixed_string_refuted",
    "C86_frame_refuted"
   ],
   "note": "Explicit reservations (with_capacity, vec![x; n]) are listed by Reserve.v next to the decoder of Deser.v; growth by push is not."
  },
  {
   "property": "C87",
   "status": "proved",
   "theorems": [
    "C87_accounted",
    "C87_capacity",
    "C87_overrun",
    "C87_waits_iff",
    "C87_end",
    "C87_dead_connection_refuted"
   ],
   "note": "tokio's broadcast channel is modelled after its documentation and source (position per receiver, Lagged, Closed)."
  },
  {
   "property": "C88",
   "status": "proved",
   "theorems": [
    "C88_parse",
    "C88_parse_refused",
    "C88_reply",
    "C88_reply_no_new_panic",
    "C88_reply_types",
    "C88_reply_refused",
    "C88_insert",
    "C88_stub_refuted"
   ],
   "note": "The recursive reader, writer and parser of columns are repeated with the stubs in place; everything else is shared with the full build."
  },
  {
   "property": "C89",
   "status": "proved",
   "theorems": [
    "C89_success_iff",
    "C89_cut_statement_succeeds",
    "C89_later_statements_fail",
    "C89_success_is_completion_refuted",
    "C89_migration_success",
    "C89_released_refuted",
    "C89_migration_cut"
   ],
   "note": "Built on C52 (connection), C50 (migrations); the consequence for locks is C33_lost_connection_*."
  },
  {
   "property": "C90",
   "status": "proved",
   "theorems": [
    "C90_marker_iff",
    "C90_accepted",
    "C90_wire",
    "C90_connection_goes_on",
    "C90_all_or_none",
    "C90_nothing_inserted_is_ok",
    "C90_later_batches_are_not_data",
    "C90_rows_inserted_refuted"
   ],
   "note": "The naive claim, that the rows of a successful insert that can be serialized are part of it, is refuted (C90_rows_inserted_refuted). That a block without columns ends the data is ClickHouse's rule (`taken`, no_columns)."
  },
  {
   "property": "C91",
   "status": "proved",
   "theorems": [
    "C91_same_outcome",
    "C91_compressed_sends_nothing",
    "C91_ragged_never_complete",
    "C91_skipped_rows_send_no_value",
    "C91_without_rows_refuted"
   ],
   "note": "The condition on rows is needed: C91_without_rows_refuted. Bytes handed over by a serializer that panics in the middle of a column are a parameter."
  },
  {
   "property": "C92",
   "status": "proved",
   "theorems": [
    "C92_words",
    "C92_answer_is_execute",
    "C92_try_lock",
    "C92_lock",
    "C92_lock_is_try_lock_again",
    "C92_closed_client",
    "C92_statement_texts",
    "C92_code_refuted",
    "C92_release_once",
    "C92_release_is_sent",
    "C92_cancelled_unlock_refuted"
   ],
   "note": "Findings: C92_code_refuted (unrelated exceptions mentioning the words count as taken), C92_cancelled_unlock_refuted (cancelled unlock / ended runtime leave the lock taken)."
  },
  {
   "property": "C93",
   "status": "proved",
   "theorems": [
    "C93_clone",
    "C93_os_number_refuted",
    "C93_with_column_name",
    "C93_server_exception",
    "C93_messages",
    "C93_message_tells",
    "C93_column_message_refuted"
   ],
   "note": "The OS number is lost: C93_os_number_refuted."
  },
  {
   "property": "C94",
   "status": "proved",
   "theorems": [
    "C94_plain_script",
    "C94_table",
    "C94_cluster_table",
    "C94_history_is_read_without_lock",
    "C94_taking_turns",
    "C94_taking_turns_log",
    "C94_nothing_unread",
    "C94_applied_twice_refuted"
   ],
   "note": "The migration runner (refinery) is external; Bootstrap.v models only that it reads the history and then executes what is pending. Finding: C94_applied_twice_refuted."
  },
  {
   "property": "C95",
   "status": "proved",
   "theorems": [
    "C95_free_is_taken",
    "C95_starvation_refuted"
   ],
   "note": "The absence of fairness is C95_starvation_refuted."
  },
  {
   "property": "C96",
   "status": "proved",
   "theorems": [
    "C96_exactly",
    "C96_names",
    "C96_succeeds",
    "C96_first_failure",
    "C96_flattened_in_nested_refuted"
   ],
   "note": "Exact in both directions for settled structs; the panic outside that condition is C96_flattened_in_nested_refuted."
  }
 ]
}