{
 "claims": [
  {
   "property": "C01",
   "status": "proved",
   "theorems": [
    "C01_header_roundtrip",
    "C01_header_oversize_panics",
    "C01_header_decode_injective",
    "C01_header_partial_updates"
   ],
   "note": ""
  },
  {
   "property": "C02",
   "status": "proved",
   "theorems": [
    "C02_map_header_roundtrip",
    "C02_map_header_oversize_panics",
    "C02_any_header_roundtrip"
   ],
   "note": ""
  },
  {
   "property": "C03",
   "status": "proved",
   "theorems": [
    "C03_scalar_read_your_write",
    "C03_zero_values"
   ],
   "note": ""
  },
  {
   "property": "C04",
   "status": "proved",
   "theorems": [
    "C04_field_independence",
    "C04_field_bytes"
   ],
   "note": ""
  },
  {
   "property": "C05",
   "status": "proved",
   "theorems": [
    "C05_sparse_encoding"
   ],
   "note": ""
  },
  {
   "property": "C06",
   "status": "proved",
   "theorems": [
    "C06_legal_calls_succeed",
    "C06_wire_layout",
    "C06_marshal_is_wire_format"
   ],
   "note": ""
  },
  {
   "property": "C07",
   "status": "proved",
   "theorems": [
    "C07_canonical_encoding",
    "C07_canonical_reached"
   ],
   "note": ""
  },
  {
   "property": "C08",
   "status": "proved",
   "theorems": [
    "C08_roundtrip",
    "C08_answers"
   ],
   "note": ""
  },
  {
   "property": "C09",
   "status": "proved",
   "theorems": [
    "C09_schema_evolution",
    "C09_writer_fields",
    "C09_unknown_fields_preserved"
   ],
   "note": ""
  },
  {
   "property": "C10",
   "status": "partial",
   "theorems": [
    "C10_decoding_terminates_partial",
    "C10_own_messages_terminate",
    "C10_decoding_terminates_refuted"
   ],
   "note": "The full statement is false of the code. Witness: a list/struct/map field whose header says size 0 makes the field index loop for ever (C10_decoding_terminates_refuted). Proved: decoding ends for every input in which every decoded field size is positive."
  },
  {
   "property": "C11",
   "status": "partial",
   "theorems": [
    "C11_trailer_bytes",
    "C11_isset_transparent_partial",
    "C11_isset_hangs_refuted"
   ],
   "note": "The full statement is false of the code. Witness: a type with 15 to 21 fields whose trailer bits spell a list, struct or map code (C11_isset_hangs_refuted). Proved for all other trailers."
  },
  {
   "property": "C12",
   "status": "proved",
   "theorems": [
    "C12_bytes_read_your_write"
   ],
   "note": ""
  },
  {
   "property": "C13",
   "status": "proved",
   "theorems": [
    "C13_nested_roundtrip",
    "C13_nil_child"
   ],
   "note": ""
  },
  {
   "property": "C14",
   "status": "proved",
   "theorems": [
    "C14_bool_list_roundtrip"
   ],
   "note": ""
  },
  {
   "property": "C15",
   "status": "proved",
   "theorems": [
    "C15_number_list_roundtrip",
    "C15_number_list_get"
   ],
   "note": ""
  },
  {
   "property": "C16",
   "status": "partial",
   "theorems": [
    "C16_blob_list_exact",
    "C16_blob_list_roundtrip_partial",
    "C16_blob_list_roundtrip_refuted",
    "C16_blob_list_refuted_class"
   ],
   "note": "The full statement is false of the code. Witness: one string of eight bytes comes back as two strings (padding of 4 bytes or more is read as an empty item). Proved exactly when the padding is below four bytes, and for empty lists."
  },
  {
   "property": "C17",
   "status": "proved",
   "theorems": [
    "C17_struct_list_roundtrip"
   ],
   "note": ""
  },
  {
   "property": "C18",
   "status": "partial",
   "theorems": [
    "C18_list_is_sequence",
    "C18_accessor",
    "C18_new_list_written_partial",
    "C18_edits_after_marshal_lost",
    "C18_edits_of_received_list_lost",
    "C18_same_bytes_after_marshal",
    "C18_edits_reach_wire_refuted"
   ],
   "note": "The full statement is false of the code. Witness: edits of a list obtained from a parsed struct, and edits after the first Marshal, are not written. Proved: a newly created list is written with all its edits."
  },
  {
   "property": "C19",
   "status": "proved",
   "theorems": [
    "C19_map_is_finite_map",
    "C19_contents_unique",
    "C19_iteration_prefix"
   ],
   "note": ""
  },
  {
   "property": "C20",
   "status": "partial",
   "theorems": [
    "C20_deterministic_partial",
    "C20_signed_zero_refuted"
   ],
   "note": "The full statement is false of the code. Witness: float keys +0 and -0. Proved for all keys with one bit pattern per key."
  },
  {
   "property": "C21",
   "status": "partial",
   "theorems": [
    "C21_what_comes_back",
    "C21_map_roundtrip_partial",
    "C21_map_roundtrip_refuted",
    "C21_nested_map_refuted",
    "C21_every_write"
   ],
   "note": "The full statement is false of the code. Witness: a uint8 to uint8 map with one entry comes back with four; nested maps are not written. Proved exactly when no zero entry fits into the padding, so always for struct and Any values."
  },
  {
   "property": "C22",
   "status": "proved",
   "theorems": [
    "C22_any_roundtrip",
    "C22_any_raw_copy"
   ],
   "note": ""
  },
  {
   "property": "C23",
   "status": "proved",
   "theorems": [
    "C23_any_list_roundtrip",
    "C23_set_list_any"
   ],
   "note": ""
  },
  {
   "property": "C24",
   "status": "partial",
   "theorems": [
    "C24_unmarshal_presence",
    "C24_unmarshal_replaces_partial",
    "C24_unmarshal_replaces_refuted"
   ],
   "note": "The full statement is false of the code. Witness: a field of the old content that the new message lacks survives. Proved when every field of the old content is in the new message; for a new struct it is C08."
  },
  {
   "property": "C25",
   "status": "proved",
   "theorems": [
    "C25_one_message",
    "C25_stream_roundtrip",
    "C25_truncated_is_error",
    "C25_other_type_refused"
   ],
   "note": ""
  },
  {
   "property": "C26",
   "status": "partial",
   "theorems": [
    "C26_list_edits_recorded",
    "C26_list_edits_replay_partial",
    "C26_list_edits_replay_refuted",
    "C26_drained",
    "C26_replay_partial",
    "C26_clear_refuted"
   ],
   "note": "The full statement is false of the code. Witnesses: ClearField is not recorded in a replayable way (C26_clear_refuted); replay onto a struct with number lists not yet written fails. Proved for all setters of scalars, strings, bytes and nested structs, and for all list edits otherwise. Recording inside lists of structs is C127, of maps C128."
  },
  {
   "property": "C27",
   "status": "partial",
   "theorems": [
    "C27_apply_diff_partial",
    "C27_empty_diff",
    "C27_patch_bytes",
    "C27_unsupported_field",
    "C27_apply_diff_refuted",
    "C27_lists_apply_diff_partial",
    "C27_lists_diff_defined",
    "C27_replace_overwritten",
    "C27_lists_apply_diff_refuted",
    "C27_bad_patch_refused",
    "C27_lists_bad_patch_refused",
    "C27_bad_item_refused"
   ],
   "note": "The full statement is false of the code. Witnesses: a nested struct that grows overwrites the next field of the base; number lists not yet written. Proved for all other messages of scalars, strings, bytes, nested structs and for lists of bools, numbers, strings and bytes; refusal of malformed patches is proved without restriction. Lists of structs are in C127, maps and Any fields in C128."
  },
  {
   "property": "C28",
   "status": "proved",
   "theorems": [
    "C28_pack_unpack",
    "C28_packed_form",
    "C28_unpack_sound",
    "C28_empty",
    "C28_unaligned_refused"
   ],
   "note": "For messages of 8 bytes up to 2^47 bytes; the empty message is C28_empty."
  },
  {
   "property": "C29",
   "status": "proved",
   "theorems": [
    "C29_size_bound"
   ],
   "note": ""
  },
  {
   "property": "C30",
   "status": "partial",
   "theorems": [
    "C30_unpack_total_partial",
    "C30_short_is_error",
    "C30_truncated_is_error",
    "C30_unpack_terminates",
    "C30_unpack_panics_on_cut",
    "C30_unpack_total_refuted"
   ],
   "note": "The full statement is false of the code. Witness: a packed body that ends inside a word indexes out of range and panics. Proved for every body, of any length, that does not end inside a word, whatever the two lengths in the header say."
  },
  {
   "property": "C31",
   "status": "partial",
   "theorems": [
    "C31_length_mod_8",
    "C31_aligned_partial",
    "C31_unaligned_not_packable",
    "C31_aligned_refuted"
   ],
   "note": "The full statement is false of the code. Witness: number lists whose item bytes are no multiple of 8. Proved: aligned exactly without such lists."
  },
  {
   "property": "C32",
   "status": "partial",
   "theorems": [
    "C32_memory_program",
    "C32_view_reads",
    "C32_earlier_fields_partial",
    "C32_same_size_partial",
    "C32_outgrown_view_partial",
    "C32_exact_effect_partial",
    "C32_isolated_refuted",
    "C32_well_formed_refuted"
   ],
   "note": "The full statement is false of the code. Witnesses: growth of a nested struct inside the spare capacity overwrites the parent's next field. Proved: exact effect of every call, fields before the child, same size edits, views that have moved."
  },
  {
   "property": "C33",
   "status": "proved",
   "theorems": [
    "C33_round_trip",
    "C33_no_bare_quote",
    "C33_any_bytes"
   ],
   "note": ""
  },
  {
   "property": "C34",
   "status": "partial",
   "theorems": [
    "C34_denotes_one",
    "C34_json_string",
    "C34_always_valid",
    "C34_denotes_refuted"
   ],
   "note": "The full statement is false of the code. The literal written is always valid JSON and denotes the text for every valid UTF-8 string (proved); two different values outside UTF-8 get the same literal."
  },
  {
   "property": "C35",
   "status": "partial",
   "theorems": [
    "C35_valid_document_partial",
    "C35_list_of_structs_refuted",
    "C35_map_of_structs_refuted",
    "C35_array_partial"
   ],
   "note": "The full statement is false of the code. Witnesses: a list of two structs has no comma between them; a map to an unset struct. Proved for every other struct of any nesting."
  },
  {
   "property": "C36",
   "status": "proved",
   "theorems": [
    "C36_value",
    "C36_key"
   ],
   "note": ""
  },
  {
   "property": "C37",
   "status": "partial",
   "theorems": [
    "C37_queue",
    "C37_all_tokens",
    "C37_walk_stream",
    "C37_skip_value_partial",
    "C37_skip_anys_refuted",
    "C37_skip_map_refuted"
   ],
   "note": "The stream laws are proved in full; SkipValue is wrong for lists of Any and for maps with nil structs or lists of Any (refuted), proved for every other value of any nesting."
  },
  {
   "property": "C38",
   "status": "proved",
   "theorems": [
    "C38_client_no_panic"
   ],
   "note": ""
  },
  {
   "property": "C39",
   "status": "proved",
   "theorems": [
    "C39_server_no_panic"
   ],
   "note": ""
  },
  {
   "property": "C40",
   "status": "proved",
   "theorems": [
    "C40_client_no_new_sessions",
    "C40_client_drains",
    "C40_server_no_new_sessions"
   ],
   "note": ""
  },
  {
   "property": "C41",
   "status": "partial",
   "theorems": [
    "C41_client_refuted",
    "C41_client_partial",
    "C41_server_completes",
    "C41_server_waits"
   ],
   "note": "The full statement is false of the code. Server side proved for every trace. Client side: giving up the last pending open of a draining connection never signals that it is drained (C41_client_refuted); proved for every run in which that does not happen."
  },
  {
   "property": "C42",
   "status": "partial",
   "theorems": [
    "C42_goaway_closes",
    "C42_inflight_refuted"
   ],
   "note": "The full statement is false of the code. For every reachable connection with a session in flight: the GoAway message cancels it (C42_inflight_refuted holds of all such states, so there is no positive part for the client)."
  },
  {
   "property": "C43",
   "status": "proved",
   "theorems": [
    "C43_client_delivery",
    "C43_client_order",
    "C43_loop_yields_prefix",
    "C43_loop_order",
    "C43_loop_yields_all",
    "C43_server_delivery",
    "C43_server_order"
   ],
   "note": ""
  },
  {
   "property": "C44",
   "status": "proved",
   "theorems": [
    "C44_own_response",
    "C44_unique_request_ids",
    "C44_server_loop",
    "C44_end_to_end",
    "C44_not_lost"
   ],
   "note": ""
  },
  {
   "property": "C45",
   "status": "proved",
   "theorems": [
    "C45_unique_ids",
    "C45_table"
   ],
   "note": ""
  },
  {
   "property": "C46",
   "status": "partial",
   "theorems": [
    "C46_second_open_refuted",
    "C46_ping_race_refuted",
    "C46_abandon_refuted",
    "C46_single_session",
    "C46_not_negotiated",
    "C46_calm_partial"
   ],
   "note": "The full statement is false of the code. Witnesses: a second Open, a ping during the first Open, an abandoned Open. Proved: runs in which only the first Open is on its way before the answer (C46_calm_partial)."
  },
  {
   "property": "C47",
   "status": "proved",
   "theorems": [
    "C47_client_first_error",
    "C47_client_initial",
    "C47_server_first_error"
   ],
   "note": ""
  },
  {
   "property": "C48",
   "status": "partial",
   "theorems": [
    "C48_not_requested",
    "C48_asked_insecurely",
    "C48_never_sent_partial",
    "C48_never_sent_refuted"
   ],
   "note": "The full statement is false of the code. Witness: two calls that share a metadata map. Proved for every history in which the maps are kept apart."
  },
  {
   "property": "C49",
   "status": "proved",
   "theorems": [
    "C49_round_robin_balancer",
    "C49_round_robin_picker",
    "C49_members",
    "C49_empty",
    "C49_wrap_around"
   ],
   "note": ""
  },
  {
   "property": "C50",
   "status": "proved",
   "theorems": [
    "C50_weighted",
    "C50_weighted_member",
    "C50_priority"
   ],
   "note": ""
  },
  {
   "property": "C51",
   "status": "proved",
   "theorems": [
    "C51_shutdown_is_final"
   ],
   "note": ""
  },
  {
   "property": "C52",
   "status": "partial",
   "theorems": [
    "C52_no_leak_partial",
    "C52_no_leak_refuted"
   ],
   "note": "The full statement is false of the code. Witness: two overlapping connection attempts. Proved for every trace without overlapping attempts."
  },
  {
   "property": "C53",
   "status": "partial",
   "theorems": [
    "C53_close_refuted",
    "C53_close_partial",
    "C53_closed_is_final",
    "C53_closed_refuses_calls",
    "C53_close_empties"
   ],
   "note": "The full statement is false of the code. Witness: two concurrent calls of Close both close the channel and the second panics. Proved for every execution in which no two calls are between test and close at the same time, and that a closed pool stays closed."
  },
  {
   "property": "C54",
   "status": "partial",
   "theorems": [
    "C54_retried_errors",
    "C54_retry_outcome",
    "C54_no_retry",
    "C54_outcome_unique",
    "C54_documented_count_refuted"
   ],
   "note": "The number of invocations, which errors are retried and the order of attempts are proved exactly; the documented total of 3 attempts is false (4), so the property as documented is refuted."
  },
  {
   "property": "C55",
   "status": "partial",
   "theorems": [
    "C55_waits_bounded_partial",
    "C55_waits_bounded",
    "C55_waits_nondecreasing",
    "C55_growth",
    "C55_first_wait_refuted"
   ],
   "note": "Every wait but the first is bounded by MaxBackoff and the waits grow as documented until then; the first wait is InitialBackoff even above MaxBackoff (refuted)."
  },
  {
   "property": "C56",
   "status": "proved",
   "theorems": [
    "C56_fatal_errors",
    "C56_at_most",
    "C56_first_result",
    "C56_arrivals",
    "C56_success_is_real",
    "C56_failure_is_total",
    "C56_no_late_hedge",
    "C56_returns"
   ],
   "note": ""
  },
  {
   "property": "C57",
   "status": "proved",
   "theorems": [
    "C57_most_specific",
    "C57_other_wildcards_ignored"
   ],
   "note": ""
  },
  {
   "property": "C58",
   "status": "proved",
   "theorems": [
    "C58_parse_printed",
    "C58_parsed_proper",
    "C58_bare",
    "C58_total",
    "C58_ascii",
    "C58_ascii_again"
   ],
   "note": ""
  },
  {
   "property": "C59",
   "status": "partial",
   "theorems": [
    "C59_lookup",
    "C59_new",
    "C59_case_insensitive",
    "C59_wire_roundtrip",
    "C59_received_is_lowered",
    "C59_literal_refuted",
    "C59_odd_arguments_panic"
   ],
   "note": "Proved for all metadata made by the API, including the wire; a literal MD with upper case keys is refuted."
  },
  {
   "property": "C60",
   "status": "proved",
   "theorems": [
    "C60_chain_is_nesting",
    "C60_chain_small",
    "C60_chain_assoc",
    "C60_order_of_effects"
   ],
   "note": ""
  },
  {
   "property": "C61",
   "status": "partial",
   "theorems": [
    "C61_registry_partial",
    "C61_handlers_lists_all",
    "C61_registry_refuted"
   ],
   "note": "The full statement is false of the code. Witness: names with slashes collide. Proved for every history of names without slashes."
  },
  {
   "property": "C62",
   "status": "proved",
   "theorems": [
    "C62_limit",
    "C62_shutdown",
    "C62_after_shutdown",
    "C62_rejected_is_final",
    "C62_accepts"
   ],
   "note": ""
  },
  {
   "property": "C63",
   "status": "partial",
   "theorems": [
    "C63_unary_server",
    "C63_unary_client_partial",
    "C63_unary_client_refuted",
    "C63_stream",
    "C63_stream_transparent"
   ],
   "note": "Server gates and stream gates proved in full; the unary client gate for names without slashes, refuted otherwise."
  },
  {
   "property": "C64",
   "status": "proved",
   "theorems": [
    "C64_roundtrip",
    "C64_unknown",
    "C64_none",
    "C64_empty",
    "C64_nothing_is_not_decompressed"
   ],
   "note": ""
  },
  {
   "property": "C65",
   "status": "proved",
   "theorems": [
    "C65_never_lost",
    "C65_pools_distinct",
    "C65_retry_means_progress"
   ],
   "note": ""
  },
  {
   "property": "C66",
   "status": "partial",
   "theorems": [
    "C66_no_lost_wakeup",
    "C66_ready_list",
    "C66_picks_listed",
    "C66_errors_justified",
    "C66_serves_refuted"
   ],
   "note": "The full statement is false of the code. Witness: with health checking switched off the list of ready backends is never filled, so no call is ever served. With health checking on, the positive theorems hold for every trace."
  },
  {
   "property": "C67",
   "status": "partial",
   "theorems": [
    "C67_head_of_line_refuted"
   ],
   "note": "The full statement is false of the code. Witness: one session whose channel is full blocks the read loop for all."
  },
  {
   "property": "C68",
   "status": "partial",
   "theorems": [
    "C68_cancel_refuted"
   ],
   "note": "The full statement is false of the code. Witness: the server ends the whole session, whatever request the Cancel names."
  },
  {
   "property": "C69",
   "status": "partial",
   "theorems": [
    "C69_crash_refuted",
    "C69_crash_certain",
    "C69_open_session_partial"
   ],
   "note": "The full statement is false of the code. Witness: a call after the session has ended dereferences nil. Proved until the receive channel is closed."
  },
  {
   "property": "C70",
   "status": "partial",
   "theorems": [
    "C70_same_stream_partial",
    "C70_no_interceptor",
    "C70_wrapping_refuted"
   ],
   "note": "The full statement is false of the code. Witness: an interceptor that wraps the stream makes a type assertion fail. Proved for interceptors that pass the stream on."
  },
  {
   "property": "C71",
   "status": "partial",
   "theorems": [
    "C71_text_field_refuted",
    "C71_text_field_partial"
   ],
   "note": "The full statement is false of the code. Witness: a string with a quote followed by a blank. Proved for strings without quotes."
  },
  {
   "property": "C72",
   "status": "partial",
   "theorems": [
    "C72_stop_refuted",
    "C72_stop_partial"
   ],
   "note": "The full statement is false of the code. Witness: a callback that stops inside a nested struct is called again. Proved for structs without nested structs, lists of structs and maps of structs."
  },
  {
   "property": "C73",
   "status": "partial",
   "theorems": [
    "C73_represents_partial",
    "C73_map_keys_refuted"
   ],
   "note": "The full statement is false of the code. Witness: keys of maps that are not strings are lost. Proved for every other struct that C35 covers."
  },
  {
   "property": "C74",
   "status": "proved",
   "theorems": [
    "C74_own_answer",
    "C74_distinct_sessions",
    "C74_distinct_ids",
    "C74_answer_decides",
    "C74_never_stuck"
   ],
   "note": ""
  },
  {
   "property": "C75",
   "status": "partial",
   "theorems": [
    "C75_why_ended",
    "C75_error_is_servers",
    "C75_error_reported_partial",
    "C75_loop_ends",
    "C75_cancelled_loop_drains",
    "C75_ended_loop_drained",
    "C75_error_after_end_refuted",
    "C75_lost_connection_refuted"
   ],
   "note": "The full statement is false of the code. Witnesses: an error that arrives after the end-of-stream payload, and a lost connection. Proved in all other cases, for every interleaving."
  },
  {
   "property": "C76",
   "status": "partial",
   "theorems": [
    "C76_ingest",
    "C76_inverse_partial",
    "C76_same_tokens_partial",
    "C76_empty_struct_refuted",
    "C76_used_refuted",
    "C76_nil_in_map_refuted"
   ],
   "note": "The effect of Ingest on any struct is proved in full (C76_ingest); that it inverts Walk holds for messages without empty nested structs, nil structs in maps and Any values without data, and into a new struct; the other cases are refuted."
  },
  {
   "property": "C77",
   "status": "partial",
   "theorems": [
    "C77_forward_partial",
    "C77_unknown_no_effect_partial",
    "C77_list_any_refuted",
    "C77_unknown_refused"
   ],
   "note": "Proved for unknown fields that SkipValue knows; lists of Any (and maps with nil structs or lists of Any) are refuted, see C37. The refusal is proved without restriction."
  },
  {
   "property": "C78",
   "status": "proved",
   "theorems": [
    "C78_any_tokens",
    "C78_cut_short"
   ],
   "note": ""
  },
  {
   "property": "C79",
   "status": "partial",
   "theorems": [
    "C79_round_trip_partial",
    "C79_float_refuted",
    "C79_uint64_refuted",
    "C79_bytes_refuted",
    "C79_enum_refuted",
    "C79_map_refuted",
    "C79_any_refuted"
   ],
   "note": "The full statement is false of the code: floats, uint64 from 2^63, byte strings and enum values without a name come back changed; maps and Any values are an error (refuted one by one); lists of two structs are not JSON at all (C35). Proved for every struct of bools, other integers, unset floats, named enum values, Unicode text, nested structs, lists of these and lists of at most one struct, empty maps."
  },
  {
   "property": "C80",
   "status": "partial",
   "theorems": [
    "C80_document",
    "C80_unknown_refused",
    "C80_unknown_array_refuted"
   ],
   "note": "Proved for documents as in Spec/JsonRead.v (integers in range and below 2^63, no floats other than zero, no maps or Any). Unknown members are ignored unless they are arrays, which are an error (C80_unknown_array_refuted)."
  },
  {
   "property": "C81",
   "status": "proved",
   "theorems": [
    "C81_any_data",
    "C81_cut_short"
   ],
   "note": ""
  },
  {
   "property": "C82",
   "status": "partial",
   "theorems": [
    "C82_round_trip_partial",
    "C82_true_refuted",
    "C82_unset_refuted",
    "C82_list_refuted",
    "C82_any_refuted",
    "C82_float_refuted",
    "C82_float32_refuted",
    "C82_uint64_refuted",
    "C82_bytes_refuted",
    "C82_enum_refuted",
    "C82_quote_refuted",
    "C82_map_refuted"
   ],
   "note": "The full statement is false of the code: the writer's comma sticks to the word before it, so the bool true comes back false, unset structs, lists, maps and Any values (written null,) and set lists, maps and Any values make the text unreadable; floats, uint64 from 2^63, base64 byte strings, enum values without a name and strings with a quote and a blank come back changed or not at all (refuted one by one, for every lexer). Proved for every struct, of any nesting, of false, integers below 2^63, zero floats, named or numbered enum values, byte strings in hexadecimal, Unicode text without quotes, and set structs of these."
  },
  {
   "property": "C83",
   "status": "proved",
   "theorems": [
    "C83_any_text"
   ],
   "note": ""
  },
  {
   "property": "C84",
   "status": "proved",
   "theorems": [
    "C84_comments",
    "C84_lines"
   ],
   "note": ""
  },
  {
   "property": "C85",
   "status": "partial",
   "theorems": [
    "C85_brace_refuted",
    "C85_line_refuted",
    "C85_list_refuted",
    "C85_reported_partial"
   ],
   "note": "The full statement is false of the code: textToTokens drops the parser's error; the text after an unmatched closing brace and the rest of a line after a value are ignored, and an error after a struct in a list of numbers is lost (refuted). Proved: for structs of numbers, strings and structs, unknown fields not ignored, every error the parser stops at makes Unmarshal fail."
  },
  {
   "property": "C86",
   "status": "partial",
   "theorems": [
    "C86_hand_partial",
    "C86_commented_partial",
    "C86_true_refuted",
    "C86_list_refuted",
    "C86_map_refuted",
    "C86_hex_refuted",
    "C86_float_refuted",
    "C86_raw_refuted",
    "C86_raw_comma_refuted",
    "C86_base64_refuted",
    "C86_null_refuted",
    "C86_null_text_refuted",
    "C86_comment_refuted",
    "C86_any_refuted",
    "C86_inline_refuted"
   ],
   "note": "The full statement is false of the code for texts of the documentation itself: `true,` and `null,` with the comma, lists without a blank after the bracket, map keys with the colon attached, hexadecimal integers, integers for a float, more than one word on the first line of a raw string, a comma after a one-line raw string, base64, Any values, structs on one line, and a comment with a quote after a string of several words (each refuted, for every lexer). Proved: a text laid out as Spec/ClawHand.v says (fields and entries in any order, words with blanks between them, lists on one line or several, nested structs, lists of structs, maps, raw strings, trailing comments) is read as the struct it shows, and comment lines added to it change nothing."
  },
  {
   "property": "C87",
   "status": "proved",
   "theorems": [
    "C87_check",
    "C87_check_quiet",
    "C87_serving_status",
    "C87_goes_on"
   ],
   "note": ""
  },
  {
   "property": "C88",
   "status": "partial",
   "theorems": [
    "C88_raw_roundtrip",
    "C88_raw_identity",
    "C88_raw_identity_refuted_any",
    "C88_raw_identity_refuted_minus_zero",
    "C88_raw_identity_refuted_pointers",
    "C88_raw_roundtrip_refuted"
   ],
   "note": "Losses are part of the proved statement (relation back in Spec/Raw.v): -0.0, empty but not nil, pointers to empty structs, nil pointers in lists and maps, Any values (dropped without an error). Refuted without the padding premises: map[uint8]uint8{0: 5} comes back as {0: 0}, []string{\"\"} as []string{\"\", \"\"}. Maps with bytes, map or Any values are not modelled."
  },
  {
   "property": "C89",
   "status": "proved",
   "theorems": [
    "C89_list",
    "C89_list_unique",
    "C89_service_info",
    "C89_method_info",
    "C89_config",
    "C89_access",
    "C89_denied",
    "C89_access_refuted_no_address",
    "C89_access_refuted_forwarded",
    "C89_list_refuted_slash"
   ],
   "note": "Proved for names without a slash and responses below 4 GiB; the access rule is stated exactly, the stronger reading (only allowed addresses are answered) is refuted."
  },
  {
   "property": "C90",
   "status": "proved",
   "theorems": [
    "C90_lines",
    "C90_text",
    "C90_one"
   ],
   "note": "Proved for any unicode tables, strings.ToLower and Item.ToInt that are right on ASCII, and a line lexer that gives the words of the lines that have some (halfpike is not modelled). Names are ASCII; comments may hold any characters. What the documentation shows beyond this language and the parser refuses is listed in DESIGN.md."
  },
  {
   "property": "C91",
   "status": "partial",
   "theorems": [
    "C91_accepted",
    "C91_resolved",
    "C91_enum_fits_refuted",
    "C91_field_names_refuted",
    "C91_field_number_refuted",
    "C91_map_values_refuted",
    "C91_options_refuted",
    "C91_declared_refuted",
    "C91_comment_refuted"
   ],
   "note": "Proved for every sequence of lines and any character classes. The line lexer (halfpike) is not modelled. Refuted parts: enum numbers beyond the declared size, equal field names, field numbers modulo 65536, undeclared map value types and enums as map values, dropped option text, undeclared types accepted until code is generated, lost first words of comments."
  },
  {
   "property": "C92",
   "status": "proved",
   "theorems": [
    "C92_total"
   ],
   "note": "Lines as the lexer makes them (words, then end of line or of file) and strings.ToLower of the empty string being empty are assumed."
  },
  {
   "property": "C93",
   "status": "partial",
   "theorems": [
    "C93_order",
    "C93_refuted"
   ],
   "note": "Exact condition proved; the unconditional claim is refuted by the enum of docs/schema_language (Tesla @10)."
  },
  {
   "property": "C94",
   "status": "partial",
   "theorems": [
    "C94_total",
    "C94_shown",
    "C94_no_require",
    "C94_read",
    "C94_saved_partial",
    "C94_require_refuted",
    "C94_acls_refuted",
    "C94_comment_refuted",
    "C94_saved_refuted"
   ],
   "note": "C94_saved_partial is for modules without access list with paths of printable characters; for public modules it is refuted (C94_saved_refuted). require and acls blocks are refused (C94_require_refuted, C94_acls_refuted, C94_no_require)."
  },
  {
   "property": "C95",
   "status": "partial",
   "theorems": [
    "C95_admitted",
    "C95_exact",
    "C95_closed",
    "C95_all",
    "C95_refuted",
    "C95_no_file_refuted"
   ],
   "note": "The documented rule is refuted (C95_refuted); C95_exact is what holds and C95_admitted the direction that does hold of the documented rule."
  },
  {
   "property": "C96",
   "status": "partial",
   "theorems": [
    "C96_within",
    "C96_total",
    "C96_shown",
    "C96_nearest",
    "C96_none",
    "C96_read",
    "C96_last_line_refuted"
   ],
   "note": "Reading a claw.work whose last line has no newline is refuted."
  },
  {
   "property": "C97",
   "status": "partial",
   "theorems": [
    "C97_shown",
    "C97_nothing",
    "C97_total",
    "C97_refuted"
   ],
   "note": "Refuted for the compiler, which passes a nil schema; C97_shown and C97_total hold for any schema that is passed."
  },
  {
   "property": "C98",
   "status": "proved",
   "theorems": [
    "C98_graph",
    "C98_exact",
    "C98_replaced",
    "C98_found",
    "C98_version",
    "C98_not_local"
   ],
   "note": "For a root claw.mod without required versions, which by C94_no_require is every one that can be read."
  },
  {
   "property": "C99",
   "status": "partial",
   "theorems": [
    "C99_built",
    "C99_order",
    "C99_exact",
    "C99_refuted"
   ],
   "note": "Proved with importers first; the order that the comment in the code promises is refuted."
  },
  {
   "property": "C100",
   "status": "proved",
   "theorems": [
    "C100_vendored",
    "C100_outside"
   ],
   "note": "Package paths without dot elements and double slashes (filepath.Join is simplified). Packages that are not at a local path have no claw.mod in the model as in the code (C98_not_local)."
  },
  {
   "property": "C101",
   "status": "proved",
   "theorems": [
    "C101_read",
    "C101_exact"
   ],
   "note": "Without a local.replace, which by C97 cannot have entries."
  },
  {
   "property": "C102",
   "status": "partial",
   "theorems": [
    "C102_read",
    "C102_exact",
    "C102_same",
    "C102_refuted"
   ],
   "note": "Cycles that do not go through the root are not found (C102_refuted)."
  },
  {
   "property": "C103",
   "status": "proved",
   "theorems": [
    "C103_externals"
   ],
   "note": "The schemas are accepted by the parser (C91)."
  },
  {
   "property": "C104",
   "status": "partial",
   "theorems": [
    "C104_in_repo",
    "C104_own",
    "C104_other",
    "C104_distinct",
    "C104_refuted"
   ],
   "note": "The prefix is compared without a slash (C104_refuted)."
  },
  {
   "property": "C105",
   "status": "proved",
   "theorems": [
    "C105_wire",
    "C105_order"
   ],
   "note": "bufio.Writer is modelled by its effect (pieces of any size; a failure stays; nothing is kept between calls)."
  },
  {
   "property": "C106",
   "status": "proved",
   "theorems": [
    "C106_after_close"
   ],
   "note": "Reads that were under way may still return bytes that had come before."
  },
  {
   "property": "C107",
   "status": "partial",
   "theorems": [
    "C107_server_shut",
    "C107_client_shut_partial",
    "C107_client_shut_refuted"
   ],
   "note": "For clients only where no two calls connect at the same time; otherwise refuted (C107_client_shut_refuted)."
  },
  {
   "property": "C108",
   "status": "partial",
   "theorems": [
    "C108_bounded",
    "C108_server_ends",
    "C108_client_ends_partial",
    "C108_client_ends_refuted",
    "C108_close_alone_refuted"
   ],
   "note": "For clients only until a write fails; then refuted (C108_client_ends_refuted): Write holds writeMu and wants connMu, Close holds connMu and wants writeMu."
  },
  {
   "property": "C109",
   "status": "partial",
   "theorems": [
    "C109_accepted",
    "C109_stays",
    "C109_kept_partial",
    "C109_kept_refuted",
    "C109_closed",
    "C109_ends"
   ],
   "note": "That no connection is lost holds while no context is cancelled; after a cancelled Accept it is refuted (C109_kept_refuted)."
  },
  {
   "property": "C110",
   "status": "partial",
   "theorems": [
    "C110_serve_closes",
    "C110_after_close_partial",
    "C110_returns_nil",
    "C110_after_close_refuted"
   ],
   "note": "For one call of Serve on the server; with two it is refuted (C110_after_close_refuted)."
  },
  {
   "property": "C111",
   "status": "partial",
   "theorems": [
    "C111_admit",
    "C111_body",
    "C111_order",
    "C111_after",
    "C111_same",
    "C111_returns",
    "C111_at_once_refuted"
   ],
   "note": "C111_at_once_refuted shows that Close waits for a Write the peer does not take."
  },
  {
   "property": "C112",
   "status": "partial",
   "theorems": [
    "C112_partial",
    "C112_refuted"
   ],
   "note": "Missing: connects that overlap, for which it is false (C112_refuted)."
  },
  {
   "property": "C113",
   "status": "partial",
   "theorems": [
    "C113_at_once",
    "C113_after",
    "C113_ends",
    "C113_connect_refuted"
   ],
   "note": "C113_connect_refuted shows that a connect in progress can return nil after Close."
  },
  {
   "property": "C114",
   "status": "partial",
   "theorems": [
    "C114_safe_partial",
    "C114_connect_partial",
    "C114_answered_partial",
    "C114_write_partial",
    "C114_close_refuted",
    "C114_twice_refuted",
    "C114_nil_refuted"
   ],
   "note": "Missing: connects that overlap with each other or with Close, for which it is false (C114_close_refuted, C114_twice_refuted, C114_nil_refuted)."
  },
  {
   "property": "C115",
   "status": "partial",
   "theorems": [
    "C115_unset",
    "C115_get_partial",
    "C115_bools",
    "C115_blobs",
    "C115_panics",
    "C115_refuted"
   ],
   "note": "Missing: lists of bools, strings and bytes, Any, maps, imported 16-bit enums, for which it is false (C115_refuted, C115_bools, C115_blobs, C115_panics)."
  },
  {
   "property": "C116",
   "status": "partial",
   "theorems": [
    "C116_partial",
    "C116_bytes",
    "C116_numbers",
    "C116_emptied",
    "C116_refuted"
   ],
   "note": "Missing: lists of strings and bytes, for which it is false (C116_emptied, C116_refuted); for numbers the accessor shows what the message holds (C116_numbers)."
  },
  {
   "property": "C117",
   "status": "partial",
   "theorems": [
    "C117_set_partial",
    "C117_get_partial",
    "C117_enum_panics",
    "C117_clear_partial",
    "C117_refuted",
    "C117_clear_refuted"
   ],
   "note": "Missing: the empty string, nil bytes and lists, for which it is false (C117_refuted); Clear of lists, maps and Any (C117_clear_refuted)."
  },
  {
   "property": "C118",
   "status": "partial",
   "theorems": [
    "C118_fields_partial",
    "C118_string",
    "C118_refuted"
   ],
   "note": "Missing: messages with values that Get does not show rightly; C118_refuted has a panic."
  },
  {
   "property": "C119",
   "status": "partial",
   "theorems": [
    "C119_order",
    "C119_answers",
    "C119_idle",
    "C119_goes_on",
    "C119_failure_partial",
    "C119_failure_refuted",
    "C119_others_refuted",
    "C119_deadline_refuted"
   ],
   "note": "Missing: that each failure is reported as one (C119_failure_partial; false for categories that are multiples of 65536, C119_failure_refuted), that the other requests are answered (C119_others_refuted) and that a deadline ends the session (C119_deadline_refuted)."
  },
  {
   "property": "C120",
   "status": "partial",
   "theorems": [
    "C120_recv",
    "C120_loop_end",
    "C120_ctx",
    "C120_broken_refuted",
    "C120_sends",
    "C120_order",
    "C120_close",
    "C120_before",
    "C120_end",
    "C120_after_partial",
    "C120_after_refuted"
   ],
   "note": "Missing: nothing after the Close with a Send under way (C120_after_refuted); telling an end from a cancellation (C120_broken_refuted)."
  },
  {
   "property": "C121",
   "status": "proved",
   "theorems": [
    "C121_result",
    "C121_once",
    "C121_not_stuck"
   ],
   "note": ""
  },
  {
   "property": "C122",
   "status": "partial",
   "theorems": [
    "C122_prefix",
    "C122_all",
    "C122_error",
    "C122_error_refuted"
   ],
   "note": "Missing: that the error of the handler is reported (C122_error_refuted)."
  },
  {
   "property": "C123",
   "status": "partial",
   "theorems": [
    "C123_dead",
    "C123_dead_refuted",
    "C123_why",
    "C123_alive_partial",
    "C123_alive_refuted",
    "C123_zero_refuted"
   ],
   "note": "Missing: transports that block (C123_dead_refuted), a read loop that is held up (C123_alive_refuted), the interval 0 (C123_zero_refuted)."
  },
  {
   "property": "C124",
   "status": "proved",
   "theorems": [
    "C124_sends",
    "C124_only",
    "C124_order",
    "C124_once",
    "C124_after"
   ],
   "note": ""
  },
  {
   "property": "C125",
   "status": "partial",
   "theorems": [
    "C125_prefix",
    "C125_all",
    "C125_overtaken_refuted",
    "C125_dropped_refuted"
   ],
   "note": "Missing: values longer than the receive limit of the server (C125_dropped_refuted) and Sends that run at the same time as CloseSend (C125_overtaken_refuted)."
  },
  {
   "property": "C126",
   "status": "partial",
   "theorems": [
    "C126_shows",
    "C126_shows_read",
    "C126_wire_partial",
    "C126_lost",
    "C126_refuted"
   ],
   "note": "Missing: what Marshal writes after the first one (false: C126_refuted, C126_lost says what it writes); changes of items of an unmarshalled list, which write into the bytes of the parent."
  },
  {
   "property": "C127",
   "status": "partial",
   "theorems": [
    "C127_memory_partial",
    "C127_wire",
    "C127_panics",
    "C127_record_partial",
    "C127_refuted",
    "C127_marshalled_refuted",
    "C127_record_refuted",
    "C127_changes_refuted"
   ],
   "note": "Missing: bases that were unmarshalled or marshalled (false: C127_refuted; C127_wire gives the exact outcome of set, insert, remove and replace); recordings of SetAll with no items and of changes of items (false)."
  },
  {
   "property": "C128",
   "status": "partial",
   "theorems": [
    "C128_diff",
    "C128_lost",
    "C128_recorded",
    "C128_refuted"
   ],
   "note": "There is no positive part: that a replay gives the recorded map is false (C128_refuted); C128_diff and C128_lost say exactly what happens."
  },
  {
   "property": "C129",
   "status": "partial",
   "theorems": [
    "C129_limit",
    "C129_starts",
    "C129_server",
    "C129_server_refuted",
    "C129_held",
    "C129_stuck",
    "C129_refuted",
    "C129_unlimited"
   ],
   "note": "Missing: a limit for the whole server (false: C129_server_refuted) and that sessions under way are served while the limit is reached (false: C129_stuck, C129_refuted)."
  },
  {
   "property": "C130",
   "status": "partial",
   "theorems": [
    "C130_unary",
    "C130_stream",
    "C130_span",
    "C130_count",
    "C130_sizes",
    "C130_counter",
    "C130_code_partial",
    "C130_code_lost",
    "C130_code_refuted",
    "C130_code_keeping_refuted"
   ],
   "note": "Missing: that the client gets the code it would get without the interceptor (false: C130_code_refuted); C130_code_partial and C130_code_lost say exactly when."
  },
  {
   "property": "C131",
   "status": "partial",
   "theorems": [
    "C131_matches",
    "C131_checked",
    "C131_unused",
    "C131_refuted"
   ],
   "note": "Missing: that a matching request is traced (false: C131_refuted, C131_unused)."
  },
  {
   "property": "C132",
   "status": "partial",
   "theorems": [
    "C132_name",
    "C132_default_port",
    "C132_literal",
    "C132_dialable",
    "C132_bracketed",
    "C132_empty_port",
    "C132_no_srv",
    "C132_dial",
    "C132_bare",
    "C132_unknown",
    "C132_bracket_refuted",
    "C132_empty_port_refuted"
   ],
   "note": "Missing: the default port for literals in brackets and for an empty port (false: C132_bracket_refuted, C132_empty_port_refuted)."
  },
  {
   "property": "C133",
   "status": "partial",
   "theorems": [
    "C133_handler",
    "C133_served",
    "C133_deadline",
    "C133_no_deadline",
    "C133_deadline_lost",
    "C133_metadata",
    "C133_sync_metadata",
    "C133_stream_metadata_lost",
    "C133_answer_partial",
    "C133_rejected",
    "C133_no_response_metadata",
    "C133_numbers",
    "C133_answer_lost",
    "C133_deadline_refuted",
    "C133_metadata_refuted",
    "C133_reason_refuted",
    "C133_answer_refuted",
    "C133_overflow_refuted"
   ],
   "note": "Missing, each false and refuted: deadlines of less than a millisecond, metadata in stream handlers, the reason of a rejection, the 2^32-th session."
  },
  {
   "property": "C134",
   "status": "proved",
   "theorems": [
    "C134_all",
    "C134_fails",
    "C134_error",
    "C134_supported",
    "C134_ends",
    "C134_bound"
   ],
   "note": ""
  },
  {
   "property": "C135",
   "status": "partial",
   "theorems": [
    "C135_lines",
    "C135_has_lines",
    "C135_used",
    "C135_unchanged",
    "C135_twice",
    "C135_rest",
    "C135_comment_refuted"
   ],
   "note": "Missing: that an import only mentioned in a comment goes (false: C135_comment_refuted)."
  },
  {
   "property": "C136",
   "status": "partial",
   "theorems": [
    "C136_written_partial",
    "C136_others",
    "C136_error",
    "C136_fetch",
    "C136_no_error",
    "C136_lost",
    "C136_written_refuted"
   ],
   "note": "Missing: packages named like one of their own files (false: C136_written_refuted, C136_lost)."
  },
  {
   "property": "C137",
   "status": "partial",
   "theorems": [
    "C137_exact",
    "C137_pinned",
    "C137_latest",
    "C137_five_redirects",
    "C137_ends",
    "C137_short_path",
    "C137_tags_alike",
    "C137_redirect",
    "C137_redirect_shown",
    "C137_tag_refuted",
    "C137_v_refuted",
    "C137_short_name_refuted",
    "C137_moved_refuted",
    "C137_short_path_refuted"
   ],
   "note": "Missing: version tags, short commit names, the latest version of a package that moved, errors for the version v and short paths (false: C137_tag_refuted, C137_short_name_refuted, C137_moved_refuted, C137_v_refuted, C137_short_path_refuted)."
  },
  {
   "property": "C138",
   "status": "partial",
   "theorems": [
    "C138_version",
    "C138_supported",
    "C138_supported_partial",
    "C138_supported_refuted",
    "C138_root",
    "C138_root_here",
    "C138_root_refuted",
    "C138_inside",
    "C138_inside_top",
    "C138_inside_refuted"
   ],
   "note": "Missing: git 3.0, roots with .git in their path, paths with the name of the repository twice (false: C138_supported_refuted, C138_root_refuted, C138_inside_refuted)."
  },
  {
   "property": "C139",
   "status": "partial",
   "theorems": [
    "C139_module",
    "C139_workspace",
    "C139_keeps",
    "C139_name_refuted"
   ],
   "note": "Missing: repositories and directories whose names are no package names (false: C139_name_refuted)."
  },
  {
   "property": "C140",
   "status": "proved",
   "theorems": [
    "C140_version",
    "C140_no_version",
    "C140_accepted",
    "C140_get"
   ],
   "note": ""
  },
  {
   "property": "C141",
   "status": "proved",
   "theorems": [
    "C141_init",
    "C141_program",
    "C141_order",
    "C141_again"
   ],
   "note": ""
  },
  {
   "property": "C142",
   "status": "partial",
   "theorems": [
    "C142_validate_partial",
    "C142_recursive",
    "C142_must",
    "C142_byName",
    "C142_validate_refuted",
    "C142_own_type_refuted"
   ],
   "note": "Missing: Structs that hold themselves, where Validate never returns (false: C142_validate_refuted, C142_own_type_refuted)."
  },
  {
   "property": "C143",
   "status": "partial",
   "theorems": [
    "C143_exact",
    "C143_ordered_partial",
    "C143_self",
    "C143_refuted"
   ],
   "note": "Missing: schemas with structs that hold themselves, which clawc accepts (false: C143_refuted). C143_exact says exactly which schemas can be initialized."
  },
  {
   "property": "C144",
   "status": "partial",
   "theorems": [
    "C144_package_partial",
    "C144_needed",
    "C144_methods_partial",
    "C144_enum_values_refuted",
    "C144_package_refuted",
    "C144_methods_refuted"
   ],
   "note": "Missing: schemas with equal names or names that look like generated ones, which clawc accepts (false: C144_enum_values_refuted, C144_package_refuted, C144_methods_refuted). C144_needed: different names are necessary."
  },
  {
   "property": "C145",
   "status": "partial",
   "theorems": [
    "C145_cells",
    "C145_append_nothing",
    "C145_set",
    "C145_elements_partial",
    "C145_elements_taken",
    "C145_structs_only",
    "C145_set_returns",
    "C145_append_returns",
    "C145_type_partial",
    "C145_append_refuted",
    "C145_strings_refuted",
    "C145_structs_refuted",
    "C145_type_refuted"
   ],
   "note": "Missing: Append (false: C145_append_nothing, C145_append_refuted), the type checks of lists of strings and structs and Type of lists of numbers (false: C145_strings_refuted, C145_structs_refuted, C145_type_refuted)."
  },
  {
   "property": "C146",
   "status": "partial",
   "theorems": [
    "C146_new_partial",
    "C146_struct",
    "C146_panics",
    "C146_no_group",
    "C146_stored",
    "C146_no_lists",
    "C146_refuted"
   ],
   "note": "Missing: structs, lists of structs, maps and Any values, and Set of strings, bytes and lists (false: C146_struct, C146_panics, C146_no_lists, C146_refuted, C117_refuted)."
  },
  {
   "property": "C147",
   "status": "partial",
   "theorems": [
    "C147_final",
    "C147_close",
    "C147_told_partial",
    "C147_opens_return",
    "C147_reader_ends",
    "C147_receivers_end_partial",
    "C147_stopped",
    "C147_told_refuted",
    "C147_stopped_refuted"
   ],
   "note": "Missing: servers that give one session id twice, and the end of the context of the connection (false: C147_told_refuted, C147_stopped_refuted)."
  },
  {
   "property": "C148",
   "status": "partial",
   "theorems": [
    "C148_close",
    "C148_told",
    "C148_requests_end",
    "C148_reader_ends",
    "C148_cancelled_refuted"
   ],
   "note": "The stronger claim that every handler is cancelled is false (C148_cancelled_refuted). Fewer than 2^32 sessions. The read loop of the model may read several messages after Close, the code at most one; C148_reader_ends says so in its premise."
  },
  {
   "property": "C149",
   "status": "partial",
   "theorems": [
    "C149_direct",
    "C149_short",
    "C149_direct_buffer",
    "C149_reader_short",
    "C149_get",
    "C149_get_other",
    "C149_put_partial",
    "C149_put_other",
    "C149_putbuffer",
    "C149_put_refuted",
    "C149_putbuffer_refuted"
   ],
   "note": "C149_put_partial: the generic Put for int8, int16 and int32 and the generic PutBuffer for all types but int64 do not do it (C149_put_refuted, C149_putbuffer_refuted; what they do is C149_put_other, C149_putbuffer)."
  },
  {
   "property": "C150",
   "status": "partial",
   "theorems": [
    "C150_mask",
    "C150_set_get_partial",
    "C150_clear",
    "C150_replace",
    "C150_bit",
    "C150_bit_outside",
    "C150_clear_bytes",
    "C150_set_get_refuted",
    "C150_range_refuted"
   ],
   "note": "C150_set_get_partial: SetValue into a range that is not clear, and of values that do not fit, is refuted; C150_replace is the full statement with ClearBits first."
  },
  {
   "property": "C151",
   "status": "partial",
   "theorems": [
    "C151_as_new",
    "C151_message",
    "C151_elsewhere",
    "C151_apart",
    "C151_marshal_lost",
    "C151_input_lost",
    "C151_nested_refuted",
    "C151_twice_refuted"
   ],
   "note": "Calls as in C32 (scalars, strings, bytes, nested structs, ClearField, Marshal, recording), one mapping, one goroutine. Release of views and twice refuted: C151_nested_refuted, C151_twice_refuted."
  },
  {
   "property": "C152",
   "status": "partial",
   "theorems": [
    "C152_on_input",
    "C152_two_messages",
    "C152_neighbours_refuted"
   ],
   "note": "Calls as in C32. The general claim for neighbouring slices without a capacity of their own is refuted: C152_neighbours_refuted."
  },
  {
   "property": "C153",
   "status": "partial",
   "theorems": [
    "C153_got",
    "C153_exact",
    "C153_no_git",
    "C153_no_git_refuted"
   ],
   "note": "Outside of a git repository the claim is refuted: C153_no_git, C153_no_git_refuted. Failures to write are not modelled."
  },
  {
   "property": "C154",
   "status": "partial",
   "theorems": [
    "C154_compiled",
    "C154_succeeds",
    "C154_outside",
    "C154_not_vendored",
    "C154_replaced_refuted",
    "C154_stale_refuted"
   ],
   "note": "Packages outside of the workspace that are not vendored are refuted: C154_not_vendored, C154_replaced_refuted, C154_stale_refuted. Reading, rendering and writing of one package is an oracle."
  },
  {
   "property": "C155",
   "status": "partial",
   "theorems": [
    "C155_structs",
    "C155_structs_listed",
    "C155_field_number",
    "C155_field_name",
    "C155_field_name_panics",
    "C155_ascii_field_partial",
    "C155_enums_listed",
    "C155_none",
    "C155_enums",
    "C155_described",
    "C155_field_name_refuted",
    "C155_no_enums_refuted"
   ],
   "note": "By name the fields whose name begins with an ASCII letter (C155_ascii_field_partial) or another byte that is no lower case letter are found; for the others it is refuted: C155_field_name_refuted. Also refuted: nil where there are no enums, C155_no_enums_refuted."
  },
  {
   "property": "C156",
   "status": "partial",
   "theorems": [
    "C156_raw",
    "C156_numbers",
    "C156_map_methods",
    "C156_nested",
    "C156_total",
    "C156_schema",
    "C156_table",
    "C156_map_table",
    "C156_nested_refuted",
    "C156_map_table_refuted"
   ],
   "note": "Refuted for the values of maps of maps that are not plain inside (C156_nested_refuted) and for the tables of map values from another package (C156_map_table_refuted); the rest is proved."
  },
  {
   "property": "C157",
   "status": "partial",
   "theorems": [
    "C157_fields",
    "C157_distinct",
    "C157_receiver",
    "C157_read_write",
    "C157_distinct_refuted",
    "C157_receiver_refuted"
   ],
   "note": "The full statement (for all accepted names of fields and with IsSet on int8 fields) is refuted: C157_distinct_refuted, C157_receiver_refuted; proved for free names, and for the receiver without int8 or IsSet."
  },
  {
   "property": "C158",
   "status": "partial",
   "theorems": [
    "C158_distinct",
    "C158_structs",
    "C158_declared",
    "C158_values_refuted",
    "C158_names_refuted"
   ],
   "note": "The full statement (for all accepted schemas) is refuted: C158_values_refuted, C158_names_refuted; proved for different and free names."
  }
 ]
}