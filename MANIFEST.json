{"claims": [
 {"property": "C01", "status": "proved", "theorems": ["C01_text_accepted_iff", "C01_written_text_is_read_back", "C01_path", "C01_path_read_back", "C01_query", "C01_query_any_struct", "C01_header", "C01_query_read_back", "C01_header_read_back"], "note": ""},
 {"property": "C02", "status": "proved", "theorems": ["C02_path_string_survives_iff"], "note": "Exact characterisation; the excluded strings are altered or lost."},
 {"property": "C03", "status": "proved", "theorems": ["C03_pairs_survive", "C03_written_pairs_survive"], "note": ""},
 {"property": "C04", "status": "proved", "theorems": ["C04_path_serialization"], "note": ""},
 {"property": "C05", "status": "proved", "theorems": ["C05_path_decoding_never_panics", "C05_tuple_iff", "C05_vec_iff", "C05_tuple_compares_all_constants_refuted"], "note": "Tuples ignore constants after the last variable (refuted variant); Vec paths compare all."},
 {"property": "C06", "status": "proved", "theorems": ["C06_typed_path_round_trip", "C06_each_component_by_itself"], "note": ""},
 {"property": "C07", "status": "proved", "theorems": ["C07_query_round_trip"], "note": ""},
 {"property": "C08", "status": "proved", "theorems": ["C08_header_round_trip", "C08_header_round_trip_http"], "note": ""},
 {"property": "C09", "status": "proved", "theorems": ["C09_request_arrives", "C09_request_decoding_iff", "C09_header_field_optional_refuted"], "note": ""},
 {"property": "C10", "status": "proved", "theorems": ["C10_query_needs_path"], "note": ""},
 {"property": "C11", "status": "proved", "theorems": ["C11_client_panics_iff", "C11_otherwise_request_or_invalid", "C11_client_never_panics_refuted"], "note": ""},
 {"property": "C12", "status": "proved", "theorems": ["C12_sent_iff", "C12_field_order", "C12_unknown_field_refused"], "note": ""},
 {"property": "C13", "status": "proved", "theorems": ["C13_path_true_refused", "C13_path_true_round_trip_refuted", "C13_query_true_refused", "C13_header_true_refused", "C13_query_false_arrives", "C13_header_false_arrives", "C13_path_false_arrives"], "note": "false arrives in all positions; true is written as \"ture\" and refused everywhere (refuted round trip)."},
 {"property": "C14", "status": "proved", "theorems": ["C14_path_refused", "C14_path_written", "C14_query_refused", "C14_header_refused", "C14_query_option_absent", "C14_header_option_absent", "C14_path_invalid", "C14_query_invalid", "C14_header_invalid", "C14_path_never_read", "C14_path_never_read_invalid", "C14_fields_written", "C14_self_describing_refused"], "note": ""},
 {"property": "C15", "status": "proved", "theorems": ["C15_path_msgpack_not_written", "C15_path_msgpack_not_read", "C15_query_msgpack_not_written", "C15_header_msgpack_not_written", "C15_query_msgpack_not_read", "C15_header_msgpack_not_read"], "note": ""},
 {"property": "C16", "status": "proved", "theorems": ["C16_decoding_iff", "C16_unknown_last_ignored", "C16_unknown_value_becomes_key", "C16_unknown_ignored_anywhere_refuted", "C16_unknown_never_hurts_refuted"], "note": "The naive claim (unknown parameters are ignored) is refuted."},
 {"property": "C17", "status": "proved", "theorems": ["C17_unknown_headers_ignored", "C17_decoding_iff"], "note": ""},
 {"property": "C18", "status": "proved", "theorems": ["C18_query_duplicates_refused", "C18_header_duplicates_refused", "C18_query_duplicates_met_refused", "C18_query_duplicates_always_refused_refuted"], "note": "Among known parameters and headers a repeated field is always refused; beside an unknown query parameter one can escape (refuted), as a consequence of C16."},
 {"property": "C19", "status": "proved", "theorems": ["C19_unit_variant_arrives", "C19_struct_variant_arrives", "C19_struct_arrives", "C19_struct_decoding_iff", "C19_struct_variant_decoding_iff", "C19_decoding_never_panics", "C19_optional_status_refuted"], "note": "Unit variants, struct variants and structs with an integer status arrive unchanged; an optional status does not (refuted)."},
 {"property": "C20", "status": "proved", "theorems": ["C20_names_and_codes_inverse", "C20_every_status_has_one_name", "C20_codes_distinct", "C20_codes_with_a_name", "C20_sender_refuses_other_names", "C20_receiver_refuses_other_codes", "C20_standard_names", "C20_all_names_standard_refuted", "C20_all_standard_statuses_refuted"], "note": ""},
 {"property": "C21", "status": "proved", "theorems": ["C21_newtype_takes_content_status", "C21_decoded_as_variant_of_that_status", "C21_struct_content_always_changes"], "note": "Includes: a newtype variant around a struct never arrives unchanged."},
 {"property": "C22", "status": "proved", "theorems": ["C22_response_iff", "C22_never_panics", "C22_refused_otherwise"], "note": ""},
 {"property": "C23", "status": "proved", "theorems": ["C23_routing_refines_spec", "C23_routing_reaches", "C23_match_suffices_refuted"], "note": ""},
 {"property": "C24", "status": "proved", "theorems": ["C24_conflict_iff", "C24_registration_total", "C24_conflict_changes_nothing", "C24_first_registration_wins", "C24_never_replaced"], "note": ""},
 {"property": "C25", "status": "proved", "theorems": ["C25_routing_sound"], "note": ""},
 {"property": "C26", "status": "proved", "theorems": ["C26_order_independent"], "note": ""},
 {"property": "C27", "status": "proved", "theorems": ["C27_never_reached", "C27_every_procedure_reachable_refuted"], "note": ""},
 {"property": "C28", "status": "proved", "theorems": ["C28_answers", "C28_statuses", "C28_panics_iff", "C28_never_panics_refuted", "C28_always_answers_refuted"], "note": "Proved, with two refutations: the target mailto:x panics the server, and a response that cannot be serialized closes the connection without an answer. User code (read_body, handler) is arbitrary but does not panic."},
 {"property": "C29", "status": "proved", "theorems": ["C29_client_target", "C29_segments_written"], "note": ""},
 {"property": "C30", "status": "proved", "theorems": ["C30_dialogue", "C30_one_by_one", "C30_progress", "C30_polls_are_rounds", "C30_over_is_over"], "note": "Rounds of the loop of poll_impl over all polls, against every network given as futures; conversation and dialogue are the specification."},
 {"property": "C31", "status": "proved", "theorems": ["C31_head_and_length", "C31_only_length_refuted"], "note": "Proved for the Content-Length the framework writes; refuted for being the only one, since a handler may write its own."},
 {"property": "C32", "status": "proved", "theorems": ["C32_one_task_per_client", "C32_connections_independent", "C32_all_clients_accepted"], "note": "The accept loop and all connections under every schedule of an executor; what an executor does after a panic is not modelled."},
 {"property": "C33", "status": "proved", "theorems": ["C33_pool_size_bound"], "note": ""},
 {"property": "C34", "status": "proved", "theorems": ["C34_pool_is_a_queue", "C34_pool_is_a_queue_per_endpoint", "C34_oldest_first", "C34_connect_iff_none_idle"], "note": "For histories of at most 2^64-1 releases with representable deadlines (see C39); exact also for aliased IPv6 addresses."},
 {"property": "C35", "status": "proved", "theorems": ["C35_own_endpoint", "C35_own_address", "C35_released_as_opened", "C35_opened_once"], "note": "Any number of calls, drops and polls in any order. Networks are 'honest': miasht's futures give back the connection they were made from (ownership in the code). C35_own_endpoint, C35_opened_once and the address a connection is given back under need nothing else. The very address (scope and flow label included) needs that the pool tells the addresses apart: overflow checks, or at most 2^64-1 calls ever, or no two connections opened to addresses that differ in scope or flow label only; C63_its_address_refuted shows that the pool mistakes such addresses once its sequence number has wrapped round. Connections are numbered as they are opened."},
 {"property": "C36", "status": "proved", "theorems": ["C36_held_once", "C36_in_use", "C36_exclusive_use"], "note": "Invariant of all schedules: the list of all holders (calls incl. their reply channel, queued release commands, idle connections) has no duplicates; and on traces: two calls use a connection only with a release by the first in between. Honest networks."},
 {"property": "C37", "status": "proved", "theorems": ["C37_suspended", "C37_served_again", "C37_suspended_only_after_failure"], "note": ""},
 {"property": "C38", "status": "proved", "theorems": ["C38_released_iff_finished", "C38_lost_with_the_call", "C38_release_reaches_pool"], "note": "All schedules incl. drops at every point, pool death and failures. A finished call has exactly one release event, of the one connection it used, to its own address; all others none, and their connection is held nowhere afterwards. The release is ignored when the pool is gone (as in the code)."},
 {"property": "C39", "status": "proved", "theorems": ["C39_panics_exactly_on_overflow", "C39_with_overflow_checks"], "note": "For histories of at most 2^64-1 releases."},
 {"property": "C40", "status": "proved", "theorems": ["C40_reuse_missed", "C40_missed_iff", "C40_never_the_alias"], "note": "A deviation of the code from its evident purpose, shown by a concrete history and characterised exactly."},
 {"property": "C41", "status": "proved", "theorems": ["C41_steps_in_order", "C41_actions", "C41_yield", "C41_finishes", "C41_panics_iff", "C41_polls_end"], "note": "Proved for the client call (src/client.rs) against every network behaviour given as futures that are ready, failed, later or never; polls after completion are not modelled."},
 {"property": "C42", "status": "proved", "theorems": ["C42_kind_by_origin", "C42_wrapping_preserves", "C42_other"], "note": "Every From impl of src/error.rs as a constructor; wrappers nest to any depth."},
 {"property": "C43", "status": "proved", "theorems": ["C43_document", "C43_absent_stays_absent", "C43_round_trip", "C43_any_document", "C43_status_sent", "C43_own_status_sent", "C43_replaced_status_refuted"], "note": "The status sent is the one taken when the response was made; a replaced problem keeps the old status (C43_replaced_status_refuted shows the mismatch)."},
 {"property": "C44", "status": "proved", "theorems": ["C44_problem_arrives", "C44_server_refusal_arrives"], "note": "For every problem of a known status, in particular those the server builds."},
 {"property": "C45", "status": "proved", "theorems": ["C45_never_decodes", "C45_optional_status"], "note": "C45_optional_status gives the general reason."},
 {"property": "C46", "status": "proved", "theorems": ["C46_text_round_trip", "C46_any_spelling", "C46_query", "C46_header", "C46_path", "C46_compact_header_carried", "C46_pretty_header_not_carried", "C46_pretty_path_unsafe", "C46_reading_total"], "note": "The text round trip, compact and pretty, for all typed values with faithful floats and no Some(null-like), to the nesting limit of serde_json; then through query, header and path. Findings: json_pretty of a non-empty container has line breaks, so HTTP headers and paths cannot carry it."},
 {"property": "C47", "status": "proved", "theorems": ["C47_case_insensitive", "C47_upper_case_field_never_filled"], "note": ""},
 {"property": "C48", "status": "proved", "theorems": ["C48_waiting_calls_fail", "C48_gone_for_good", "C48_no_call_forgotten", "C48_holders_as_alone", "C48_alone_is_drive", "C48_pool_irrelevant"], "note": "With the pool gone each waiting call fails with Other at its next poll, new calls too, other calls untouched; while the pool lives, handling the queued commands answers every waiting call or kills the pool; a call with a connection behaves exactly as a lone CallInner under any schedule of everything else (so C41 says when it finishes); connecting calls do not look at the pool."},
 {"property": "C49", "status": "proved", "theorems": ["C49_reported_iff_failed", "C49_reported_once", "C49_failure_reported", "C49_in_order", "C49_suspended_turned_down", "C49_turned_down_stays", "C49_otherwise_served"], "note": ""},
 {"property": "C50", "status": "proved", "theorems": ["C50_call_end_to_end", "C50_refused_end_to_end", "C50_networks_exist"], "note": "Composes C09, C23, C28, C30, C19 and C41. The network is any that carries requests and responses as stated in EndToEndSpec.v; one such network is constructed. Requests are structs of path, query and header parts that survive transport (C06-C08)."},
 {"property": "C51", "status": "proved", "theorems": ["C51_request", "C51_handlers", "C51_response", "C51_call", "C51_json_text", "C51_json_bytes"], "note": "Types: no deserialize_any inside and distinct field names (what the compiler ensures). Handlers: replacing what they do on values outside their type changes no answer. For file: URLs, whose parser is an oracle, only that it yields strings is assumed."},
 {"property": "C52", "status": "proved", "theorems": ["C52_calls_in_turn", "C52_served", "C52_refused", "C52_invalid", "C52_networks_exist"], "note": "Network assumed: FIFO in both directions, reads and writes eventually complete, reading a request body leaves the following requests. Calls that fail locally or whose answer cannot be decoded are outside (C41, C28)."},
 {"property": "C53", "status": "proved", "theorems": ["C53_reads_exactly", "C53_refuses_the_rest", "C53_unambiguous", "C53_problem_exactly", "C53_body_taken", "C53_other_bodies_ignored", "C53_unread_body_is_500", "C53_other_bodies_refused"], "note": "Both directions of the parser against the grammar (JsonSpec.v, hexadecimal digits stated independently) and of the derived Deserialize of Problem against ProblemExactSpec.v. The text-to-float function is a parameter."},
 {"property": "C54", "status": "proved", "theorems": ["C54_tree_exactly", "C54_text_exactly", "C54_body_exactly", "C54_field_exactly", "C54_refuses_the_rest", "C54_one_value"], "note": "Against JsonTypeSpec.v, which says what a tree means as a value of a type without visitors or loops; texts through the grammar of C53."},
 {"property": "C55", "status": "proved", "theorems": ["C55_path_exactly", "C55_query_exactly", "C55_header_exactly", "C55_request_exactly", "C55_refuses_the_rest", "C55_one_value", "C55_served"], "note": "Both directions for the path, the query, the headers and whole requests, for every shape of type the deserializers accept (tuples, vectors, structs, maps, options, newtypes, lone scalars); refusals are Err Invalid, so the server's answer is 400. The hypothesis names_ok says that header names are valid strings (they are &str in miasht)."},
 {"property": "C56", "status": "proved", "theorems": ["C56_response_exactly", "C56_refuses_the_rest", "C56_one_value", "C56_call", "C56_self_describing_status"], "note": "Both directions for every shape of type, error kinds included, and the outcome of a whole call. The names of the statuses come from an independent table of the registered reason phrases (StatusSpec.v)."},
 {"property": "C57", "status": "proved", "theorems": ["C57_tree_exactly", "C57_refused_exactly", "C57_compact_field", "C57_pretty_field", "C57_field_refused", "C57_one_document", "C57_problem_body"], "note": "Tree, layout and escapes are inductive relations written independently of the printers; the float texts are those of the float oracle."},
 {"property": "C58", "status": "proved", "theorems": ["C58_fair_calls_end", "C58_dropped_only_by_its_user", "C58_dropping", "C58_without_answers_refuted", "C58_without_the_pool_refuted"], "note": "C58_fair_calls_end by a measure in lexicographic order that no step raises and that the step a call waits for lowers; the two refutations show that neither fairness to the pool nor the answers of the network can be left out."},
 {"property": "C59", "status": "proved", "theorems": ["C59_request_target", "C59_target_exact", "C59_query_read", "C59_target_read"], "note": "All three are equivalences with a specification written only with characters and bytes (UrlSpec.v, Utf8Spec.v)."},
 {"property": "C60", "status": "proved", "theorems": ["C60_integers_written", "C60_length_sent", "C60_texts_written", "C60_texts_read", "C60_texts_read_leniently", "C60_names", "C60_headers_that_travel", "C60_sameness", "C60_connection_order"], "note": "The definitions these theorems are stated with (bit patterns of UTF-8, numerals by place value, the alphabet, lists compared place by place) do not use the model's functions."},
 {"property": "C61", "status": "proved", "theorems": ["C61_clients_served", "C61_clients_served_by_polls", "C61_requests_answered", "C61_requests_answered_by_polls", "C61_poll_returns_iff", "C61_accept_returns_iff", "C61_greedy_client_refuted"], "note": "Liveness of the server under fairness, at the granularity of rounds and of polls, with the necessary and sufficient condition for a poll to return. C61_greedy_client_refuted: a poll loop without a budget lets one eager client starve all others of its thread."},
 {"property": "C62", "status": "proved", "theorems": ["C62_own_answer", "C62_as_meant", "C62_order_needed"], "note": "Composition of pool, client and server: for runs of the pool system with a server at the other end of every connection. The hypotheses only say that each direction of each connection keeps order and that connections are what they are (honest_label); nothing about failures, time or fairness. C62_order_needed shows that the order hypothesis cannot be left out."},
 {"property": "C63", "status": "proved", "theorems": ["C63_counter", "C63_without_overflow_checks", "C63_handed_out_once", "C63_handed_out_to_its_address", "C63_its_address_refuted"], "note": "C63_its_address_refuted is the counterexample for aliased addresses after 2^64 releases without overflow checks; the other theorems hold for histories of any length."},
 {"property": "C64", "status": "proved", "theorems": ["C64_query_map", "C64_query_map_same_iff", "C64_query_whole", "C64_header_whole", "C64_header_map", "C64_header_map_never_same", "C64_header_names_merge_refuted"], "note": "Exact description of what is read where a map was written, as query and as headers; options and newtypes around whole queries and headers; C09, C51 and C54 now cover such queries and headers too."},
 {"property": "C65", "status": "proved", "theorems": ["C65_every_end_explained", "C65_pool_lost", "C65_well_pool_stays", "C65_well_failures"], "note": "Causes are read off the log of the run (labels and events), not off the model's states; no hypothesis on the network for the first two theorems."},
 {"property": "C66", "status": "proved", "theorems": ["C66_own_response", "C66_never_lost", "C66_served_in_the_end"], "note": "Joins C50, C52 (what a call comes to), C58 (it ends), C62 (own answer) and C65 (it is lost only for a cause). Conditions are on what happened in the run (log), shown to be met by an endless schedule of five calls over two reused connections."},
 {"property": "C67", "status": "proved", "theorems": ["C67_every_target", "C67_one_meaning", "C67_panics_iff", "C67_refused_answered", "C67_authority_form", "C67_absolute_form"], "note": "Relation `target_means` (TargetSpec.v) is shown sound and total for `parse_url`. Host and file-URL syntax are parameters."},
 {"property": "C68", "status": "proved", "theorems": ["C68_same_polls", "C68_same_system", "C68_no_lost_wakeup", "C68_asleep_means_idle", "C68_woken_calls_end", "C68_without_wakeups_refuted", "C68_connection_sleeps_on_its_future", "C68_acceptor_sleeps_on_its_future"], "note": "Channels wake as fibers documents (Wake.v); each call is its own task."},
 {"property": "C69", "status": "proved", "theorems": ["C69_calls_use_the_base", "C69_no_data_race", "C69_made_once", "C69_for_good", "C69_calls_return", "C69_without_a_base", "C69_the_base_is_parsable"], "note": "std's Once is modelled by its documented guarantees."},
 {"property": "C70", "status": "proved", "theorems": ["C70_request_read", "C70_response_read", "C70_body_read", "C70_content_length", "C70_calls_over_bytes", "C70_streams_exist", "C70_handled", "C70_refused", "C70_invalid", "C70_cut_request", "C70_cut_response", "C70_cut_body", "C70_request_fits", "C70_response_fits"], "note": "Over HttpBytes.v, a byte-level model of the HTTP parser and writer, in place of the assumed laws of C52. C70_calls_over_bytes with C70_handled/C70_refused/C70_invalid gives the answers; C70_request_fits/C70_response_fits say which values fit. Handlers must read the whole body (reads_all). Chunked bodies are left out. What httparse takes in targets and whether it trims values are parameters."},
 {"property": "C71", "status": "proved", "theorems": ["C71_too_big", "C71_odd_target", "C71_targets_clean", "C71_every_call_is_answered_refuted"], "note": "C71_every_call_is_answered_refuted shows that the English claim that every well-formed call is answered is false. Whether httparse takes the vertical bar is a hypothesis on the parameter uri_byte."},
 {"property": "C72", "status": "proved", "theorems": ["C72_delivered_iff", "C72_delivered", "C72_received_safe", "C72_as_sent_or_not_at_all_refuted", "C72_one_call_one_request_refuted", "C72_target_given", "C72_lines_before"], "note": "C72_delivered shows that the law assumed of httpenv elsewhere (deliver_safe) holds of the byte-level parser; C72_delivered_iff that it cannot be widened."},
 {"property": "C73", "status": "proved", "theorems": ["C73_own_response", "C73_own_answer", "C73_never_lost", "C73_served_in_the_end"], "note": "Puts C70 (bytes) in place of the assumed pairing of responses with requests in C62 and C66: here the pairing is proved, from byte order alone (over_tcp). Hypotheses on user code: handlers take the whole body (takes_body), messages fit the limits. C73_case runs five calls over two connections at two servers."},
 {"property": "C74", "status": "proved", "theorems": ["C74_one_reply_each", "C74_body_taken_for_a_request"], "note": "C74_one_reply_each is the server's half of C73. C74_body_taken_for_a_request supposes, as HttpBytes.v does, that into_inner and finish (src/server.rs:86,93) leave unread bytes where they are. C74_case shows a later call that gets the reply to the hidden request."},
 {"property": "C75", "status": "proved", "theorems": ["C75_answers", "C75_pipes", "C75_no_deadlock", "C75_all_answered", "C75_readers_wait", "C75_deadlock"], "note": "A closed system: unlike C70 and C73 no stream is supposed to carry what the other end writes; the pipes do. C75_deadlock is the converse for handlers that answer at once; C75_deadlock_case meets it with a body of 9000 bytes. What a handler says is reply_to of the bytes that have come so far (C30)."},
 {"property": "C76", "status": "proved", "theorems": ["C76_request_read", "C76_server", "C76_readers", "C76_leavers", "C76_call"], "note": "C70 and C73 suppose what an htrpc client sends; C76 supposes nothing of the bytes. The case is a request left unread, which reads as another one, then garbage."},
 {"property": "C77", "status": "proved", "theorems": ["C77_one_request", "C77_one_sequence", "C77_one_response", "C77_one_value", "C77_one_answer", "C77_bytes_name_the_procedure_refuted", "C77_every_value_refuted"], "note": "From C70 (reading is exact) and C09/C19 (decoding gives back the value): two messages with the same bytes are read as one. The two refuted claims mark where that ends."},
 {"property": "C78", "status": "proved", "theorems": ["C78_exactly", "C78_fair_calls_end", "C78_as_without", "C78_whole_call_refuted"], "note": "The monotonic clock of timers and the wall clock of the blacklist are separate in the model."},
 {"property": "C79", "status": "proved", "theorems": ["C79_request", "C79_response", "C79_document", "C79_field", "C79_problem", "C79_unknown_parameter_refuted", "C79_lone_value_refuted"], "note": "Maps keep the order of their entries in the model, so types with maps are left out for JSON."},
 {"property": "C80", "status": "proved", "theorems": ["C80_one_call_each", "C80_counted", "C80_after_restart", "C80_kept_connections_work_refuted"], "note": "Stated with honest networks (a connection stays the same connection while it is written to and read from), as for C36."},
 {"property": "C81", "status": "proved", "theorems": ["C81_exact", "C81_bounded", "C81_from_failed_calls", "C81_forgotten_refuted"], "note": ""},
 {"property": "C82", "status": "proved", "theorems": ["C82_new_server", "C82_old_client", "C82_new_client", "C82_old_reader_headers", "C82_old_client_variant", "C82_old_server_query", "C82_old_server_refuted"], "note": "C82_old_server_refuted: the optional field `sort` with the value \"name\" makes an old server read the field `name` as \"name\"."},
 {"property": "C83", "status": "proved", "theorems": ["C83_text", "C83_field", "C83_too_new_refused", "C83_by_position_refuted"], "note": "C83_by_position_refuted: [1,2] read for {lo, hi} and then for {hi, lo} gives other values."},
 {"property": "C84", "status": "proved", "theorems": ["C84_not_answered", "C84_at_most_one", "C84_answered_at_end", "C84_call_waits", "C84_call_takes_all", "C84_next_call_fails"], "note": "Rests on the model of miasht's body reader (HttpBytes.v: a body without a length ends with the stream)."},
 {"property": "C85", "status": "proved", "theorems": ["C85_same_replies", "C85_same_in_the_end"], "note": "The procedures themselves are functions of the request here; what user code shares between calls is outside the model."},
 {"property": "C86", "status": "proved", "theorems": ["C86_same_polls", "C86_no_lost_wakeup", "C86_clients_served", "C86_requests_answered"], "note": "C68 says the same of the client's pool and C61 what one poll of the server does; C86 is the run of the whole server. That a future which answers not ready takes note of the task is assumed of the dependencies' futures."},
 {"property": "C87", "status": "proved", "theorems": ["C87_server", "C87_call", "C87_calls"], "note": "C76 compares two connections with the same bytes; C87 says what comes of the bytes. Handlers other than those that read the body to the end or leave it are covered by C76. The texts of problems may depend on the request but not on the connection. Chunked bodies are not modelled."},
 {"property": "C88", "status": "proved", "theorems": ["C88_same_system", "C88_no_lost_wakeup", "C88_woken_calls_end", "C88_without_timers_refuted"], "note": "Joins C68 (no lost wake-up) and C78 (timeouts): there the timeout was part of the network that wakes. That TimeoutAfter polls its timer whenever the future is not ready is as fibers does it."},
 {"property": "C89", "status": "proved", "theorems": ["C89_kept", "C89_same_server", "C89_refused_bodies_kept", "C89_bound_refuted"], "note": "C89_bound_refuted: the server reads the body of a refused request into memory (read_all_bytes) only to drop it. The bound is for the bytes of the connection; what handlers keep and the responses are not counted. C89_same_server ties this model, in which memory is seen, to the server of C30 and C87."},
 {"property": "C90", "status": "proved", "theorems": ["C90_exact", "C90_variables", "C90_matches", "C90_routed", "C90_conflicts"], "note": "The compiler's macro matching is modelled on token trees; an expression that is no text is refused by the compiler, like any other token. That a registration is refused exactly if its method and entry point are taken is C24."},
 {"property": "C91", "status": "proved", "theorems": ["C91_same_server", "C91_happens", "C91_after_read", "C91_once", "C91_by_bytes", "C91_calls", "C91_worth_once", "C91_own_value"], "note": "Invoke.v takes the future of phase C apart where handle_rpc is called; C91_same_server shows it is the server of Server.v. C91_calls assumes that handlers read the whole body (C91_case shows what C74's handler does). That a call whose connection is lost may still have been run, but no more than once, is the bound j."},
 {"property": "C92", "status": "proved", "theorems": ["C92_no_retry", "C92_own_requests", "C92_at_most_once", "C92_answered_once"], "note": "Joins C73 (pool over bytes) and C91 (runs of handlers). C92_no_retry and C92_own_requests hold with no hypothesis on the network. C92_answered_once is under those of C73_own_answer. Handlers that leave bodies behind are excluded, as in C91_calls; a request that is worth no run (C91) is among those met, with no handler."},
 {"property": "C93", "status": "proved", "theorems": ["C93_in_turn", "C93_none_after", "C93_asked_before_refuted"], "note": "C73 without its servers. The function is found_all of C87 (found_on in PoolTurnSpec.v). Networks are those of C73: what is read is what the HTTP parser makes of the connection's bytes, or reading fails or never ends. C93_asked_before_refuted is the finding: a pooled connection is handed out without a look at bytes that are left in its buffer."},
 {"property": "C94", "status": "proved", "theorems": ["C94_kept", "C94_same_call", "C94_refused_bodies_kept", "C94_bound_refuted"], "note": "The client's counterpart of C89, with the peer free to close. C94_same_call ties the model with visible reads to Client.v's drive. C94_bound_refuted: a server, or whoever speaks in its place, can make the client's memory grow without end, and a response of an unknown status is not refused at its head."},
 {"property": "C95", "status": "proved", "theorems": ["C95_alive", "C95_opened_and_sent", "C95_size_bounds_connections_refuted"], "note": "C33 bounds only the idle connections. The command channel is unbounded in the code; the bound here is what calls can put into it. C95_size_bounds_connections_refuted: there is no limit on simultaneous connections, with_pool_size limits only those kept idle."},
 {"property": "C96", "status": "proved", "theorems": ["C96_isolated", "C96_suspended_alone", "C96_without_room_refuted"], "note": "Two addresses share the counter of releases, the tree of connections, the queue of the least recently used and the table of suspensions; this says that nothing but the room passes through them. roomy is a condition on the history alone (PoolApartSpec.v). Aliased addresses are C40."},
 {"property": "C97", "status": "proved", "theorems": ["C97_request", "C97_numbers", "C97_response", "C97_any_string_refuted", "C97_same_handler_refuted", "C97_booleans_refuted", "C97_any_status_refuted"], "note": "This is what a gateway needs that is written as a handler that calls. It composes typing of what is decoded (C51) with the round trips (C09, C19), and shows besides that header values that were read are values HTTP can carry. RelaySpec.v has the types."},
 {"property": "C98", "status": "proved", "theorems": ["C98_economy", "C98_one_connection", "C98_without_room_refuted", "C98_with_aliases_refuted"], "note": "The order of the command queue matters: a call's own release is queued before the next call's request, and this is what makes the connection available. A request of a dropped call still takes a connection from the pool, which is then closed; the theorem counts it to that call. EconomySpec.v has the counts."},
 {"property": "C99", "status": "proved", "theorems": ["C99_served_by", "C99_as_before_or_as_alone", "C99_kept", "C99_diverted", "C99_constants_keep", "C99_no_constant_no_loss", "C99_other_method_refuted", "C99_taken_unanswered_refuted"], "note": "Served requests are characterised exactly (C99_served_by, an equivalence, strengthens C23 and C25). GrowthSpec.v has what it means to divert a request."},
 {"property": "C100", "status": "proved", "theorems": ["C100_exactly", "C100_search", "C100_wrong_method", "C100_grows", "C100_check", "C100_calls", "C100_clash_costs", "C100_search_refuted"], "note": "The equivalence needs the handlers to be told apart (NoDup of what is registered). C100_calls is C50 with the condition on the values replaced by one on the table. ClashSpec.v has the condition and the program that checks it."},
 {"property": "C101", "status": "proved", "theorems": ["C101_same_run", "C101_added", "C101_order", "C101_conflict", "C101_clash_refuted"], "note": "The condition is only on requests that connections begin to read in the run of the old server. DeploySpec.v says it."}
]}
