# Formal model of sile/htrpc in Rocq (Coq 8.16.1)

Everything lives in `rocq/theories`; build with `coq_makefile -f _CoqProject -o Makefile && make -j4` in `rocq`.
The model is executable Gallina, one function per function of the source, each citing the lines it models.
Files named `*Spec.v` hold small specifications that do not mention the modelled state machines; `*Proofs.v`,
`*Trip.v` and the like hold proofs; `*Props.v` hold the theorems of the properties, each followed by
`Print Assumptions` and by an `Example` with a concrete case that meets its hypotheses.

## Modelling conventions

* A Rust `str` is a list of Unicode scalar values (`ustr := list N`), bytes are numbers below 256. UTF-8 is modelled.
* `Result` is `res`: `Ok`, `Err kind` (`Invalid` | `Other`, as in src/error.rs), `Panic` (an `unwrap`, `expect`,
  `assert!`, `unreachable!` or `track_try_unwrap!` that fires) and `Diverge` (the model's fuel ran out; every theorem
  that says what a function returns excludes it). `track_panic!` and `track_assert!` are not panics: they return `Err`.
* A method taking `&mut self` returns the new state.
* User types are data: `value` is what a `Serialize` impl gives to serde, `ty` describes a type with a derived
  `Deserialize`. The derived visitors are modelled once, generically (Serde.v). Hand-written impls of users are not covered,
  except htrpc's own `json`, `json_pretty` and `msgpack` modules.
* A future is `fut`: ready, failed, later, or never. A network is a record of functions giving such futures, so theorems
  quantify over all behaviours of the network, and over any pattern of polls.
* Executors are schedules: lists of labels in any order. Labels that do not apply are passed over.
* Dependencies (url, miasht, handy_async, fibers, serde, serdeconv, serde_json, trackable, std) are not in /repo. What the code
  needs of them is modelled from their documented behaviour (`Dep*.v`, Serde.v, Json*.v, Utf8.v, Decimal.v), or is a
  parameter over which theorems quantify.

## The properties

Status is in `MANIFEST.json`. A theorem ending in `_refuted` shows that the stronger claim one would expect is false of the code.

| id | property | how it is modelled and proved | theorems (in) |
|---|---|---|---|
| C01 | Integer fields survive the text encoding, out-of-range text is refused | Decimal printer and parser on code points with Rust's sign and overflow rules, against the grammar `int_text`; then inside paths, queries and headers. | …text_accepted_iff, …written_text_is_read_back, …path, …path_read_back, …query, …query_any_struct, …header, …query_read_back, …header_read_back (FieldProps.v, PathProps.v) |
| C02 | Which strings survive as a path variable | `push` (url crate) composed with the repository's `percent_decode`; equivalence by induction on the string. | …path_string_survives_iff (PathProps.v) |
| C03 | Query pairs survive the URL | `form_urlencoded` writer and reader with UTF-8, through the server's URL parser. | …pairs_survive, …written_pairs_survive (FieldProps.v) |
| C04 | When a path can be serialized, and what it is | `ser_path` on all serde values equals `path_args`/`fill` of PathSpec.v. | …path_serialization (PathProps.v) |
| C05 | Path decoding is bound to the entry point | `de_path` with explicit panics; exact description by `var_texts`/`whole_texts`. | …path_decoding_never_panics, …tuple_iff, …vec_iff, …tuple_compares_all_constants_refuted (PathProps.v) |
| C06 | Typed path round-trip | C01, C02, C04 and C05 composed, through `parse_url`. | …typed_path_round_trip, …each_component_by_itself (PathProps.v) |
| C07 | Typed query round-trip | `ser_query` then `de_query` with the derived struct visitor; exact description of both sides, then the composition. | …query_round_trip (FieldProps.v) |
| C08 | Typed header round-trip | `ser_header` then `de_header`; also through any `deliver` that keeps safe headers. | …header_round_trip, …header_round_trip_http (FieldProps.v) |
| C09 | An RPC request arrives unchanged at its handler | client encoder, HTTP delivery, URL parser, router and request decoder composed. | …request_arrives, …request_decoding_iff, …header_field_optional_refuted (RequestProps.v) |
| C10 | A request with a query needs a path | no value is accepted by both the path and the query serializer; induction on the fields. | …query_needs_path (RequestProps.v) |
| C11 | When the client panics instead of returning an error | `encode_request` is characterised exactly, including its panics. | …client_panics_iff, …otherwise_request_or_invalid, …client_never_panics_refuted (RequestProps.v) |
| C12 | Order of the parts of a request | the field automaton against the relation `sends`. | …sent_iff, …field_order, …unknown_field_refused (RequestProps.v) |
| C13 | Booleans | the writer's "ture" and the readers of booleans in all positions. | …path_true_refused, …path_true_round_trip_refuted, …query_true_refused, …header_true_refused, …query_false_arrives, …header_false_arrives, …path_false_arrives (FieldExtraProps.v, FieldProps.v, PathProps.v) |
| C14 | Types the receiver always refuses | the decoders' refusals for every input, and what the serializers write. | …path_refused, …path_written, …query_refused, …header_refused, …query_option_absent, …header_option_absent, …path_invalid, …query_invalid, …header_invalid, …path_never_read, …path_never_read_invalid, …fields_written, …self_describing_refused (FieldExtraProps.v, FieldProps.v, PathProps.v, RefusalProps.v) |
| C15 | MessagePack fields | `Vec<u8>` is a sequence to serde; refused by all three serializers and readers. | …path_msgpack_not_written, …path_msgpack_not_read, …query_msgpack_not_written, …header_msgpack_not_written, …query_msgpack_not_read, …header_msgpack_not_read (FieldProps.v, PathProps.v) |
| C16 | Unknown query parameters | exact description of query decoding (`parses`), then consequences and two counterexamples. | …decoding_iff, …unknown_last_ignored, …unknown_value_becomes_key, …unknown_ignored_anywhere_refuted, …unknown_never_hurts_refuted (FieldProps.v) |
| C17 | Unknown headers are ignored | exact description of header decoding; unknown headers do not occur in it. | …unknown_headers_ignored, …decoding_iff (FieldProps.v) |
| C18 | Duplicate fields are refused | invariant of the visitor's slots; beside unknown parameters a duplicate can escape (refuted). | …query_duplicates_refused, …header_duplicates_refused, …query_duplicates_met_refused, …query_duplicates_always_refused_refuted (FieldExtraProps.v, FieldProps.v) |
| C19 | An RPC response arrives unchanged | `ser_response`/`de_response` by shape of the response. | …unit_variant_arrives, …struct_variant_arrives, …struct_arrives, …struct_decoding_iff, …struct_variant_decoding_iff, …decoding_never_panics, …optional_status_refuted (ResponseProps.v) |
| C20 | Status names and codes agree between the two directions | the two tables compared; every other name and code is refused. | …names_and_codes_inverse, …every_status_has_one_name, …codes_distinct, …codes_with_a_name, …sender_refuses_other_names, …receiver_refuses_other_codes, …standard_names, …all_names_standard_refuted, …all_standard_statuses_refuted (DecodeProps.v, ResponseProps.v) |
| C21 | Newtype response variants take the status of their content | exact description of responses (`answers`) applied to newtype variants. | …newtype_takes_content_status, …decoded_as_variant_of_that_status, …struct_content_always_changes (ResponseProps.v) |
| C22 | Response serialization never panics and frames the body | `ser_response` against the relation `answers`; induction on the value. | …response_iff, …never_panics, …refused_otherwise (RefusalProps.v, ResponseProps.v) |
| C23 | Routing follows the constants-first rule | the trie refined against a filter over the list of registrations; induction on the URL. | …routing_refines_spec, …routing_reaches, …match_suffices_refuted (RouterProps.v) |
| C24 | Conflicting registrations | the trie's lookup function; induction on the registrations. | …conflict_iff, …registration_total, …conflict_changes_nothing, …first_registration_wins, …never_replaced (RouterProps.v) |
| C25 | Routing is sound | corollary of the refinement. | …routing_sound (RouterProps.v) |
| C26 | Routing does not depend on registration order | the specification depends only on the set of registrations. | …order_independent (RouterProps.v) |
| C27 | Procedures that can never be reached | C23 with the shape of segments that a parsed URL can have. | …never_reached, …every_procedure_reachable_refuted (RequestProps.v) |
| C28 | Every request gets the right answer | `reply_to` (ServerSpec.v), a sequential program, equals what the state machine does. | …answers, …statuses, …panics_iff, …never_panics_refuted, …always_answers_refuted (ServerProps.v) |
| C29 | Clients never send a dangerous target | character classes preserved by all encoders; the written target parses back. | …client_target, …segments_written (RequestProps.v, TargetPartsProps.v) |
| C30 | A connection answers requests one by one and in order | the state machine of a connection, for every network given as futures and any polling, equals the sequential program `conversation`. | …dialogue, …one_by_one, …progress, …polls_are_rounds, …over_is_over (ServerProps.v) |
| C31 | HEAD and body framing | the writes of C30's dialogue: heads, bodies and lengths. | …head_and_length, …only_length_refuted (ServerProps.v) |
| C32 | The accept loop is not stopped by one client | accept loop and connections under every schedule. | …one_task_per_client, …connections_independent, …all_clients_accepted (ServerProps.v) |
| C33 | Pool size bound | invariant over all command histories. | …pool_size_bound (PoolProps.v) |
| C34 | Pool reuse order | the two BTreeMaps refine a queue (PoolSpec.v). | …pool_is_a_queue, …pool_is_a_queue_per_endpoint, …oldest_first, …connect_iff_none_idle (PoolProps.v) |
| C35 | Connections are only used for their address | invariant of the transition system of pool and calls. | …own_endpoint, …own_address, …released_as_opened, …opened_once (PoolSystemProps.v) |
| C36 | A connection is never shared | the list of all holders has no duplicates; on traces, uses by two calls are separated by a release. | …held_once, …in_use, …exclusive_use (PoolSystemProps.v) |
| C37 | Suspension of failing addresses | the blacklist refines a deadline per address. | …suspended, …served_again, …suspended_only_after_failure (PoolProps.v) |
| C38 | Connections return to the pool exactly after success | counting events over all traces. | …released_iff_finished, …lost_with_the_call, …release_reaches_pool (PoolSystemProps.v) |
| C39 | The pool never hits its 'Never fails' assertions | invariant linking the maps; the only panic is the overflow. | …panics_exactly_on_overflow, …with_overflow_checks (PoolProps.v) |
| C40 | Reuse is missed for IPv6 aliases | the comparison of addresses ignores what equality does not. | …reuse_missed, …missed_iff, …never_the_alias (PoolProps.v) |
| C41 | A call runs its steps once and in order | the state machine of a call equals the sequential program `sequential`, for every network and any polling. | …steps_in_order, …actions, …yield, …finishes, …panics_iff, …polls_end (ClientProps.v) |
| C42 | Error classification | every `From` impl as a constructor of `source`; induction on nesting. | …kind_by_origin, …wrapping_preserves, …other (ClientProps.v) |
| C43 | Problem details round-trip and carry their status | the JSON document of a problem against RFC 7807 (ProblemSpec.v); text through C46. | …document, …absent_stays_absent, …round_trip, …any_document, …status_sent, …own_status_sent, …replaced_status_refuted (ProblemProps.v) |
| C44 | Server-generated problems are understood by clients | C28, C43 and the client's response decoder composed. | …problem_arrives, …server_refusal_arrives (ProblemProps.v, ServerProps.v) |
| C45 | ProblemResponse as a whole response type | the status deserializer does not visit options: refusal for all inputs. | …never_decodes, …optional_status (ProblemProps.v) |
| C46 | JSON fields | JSON printers and parser against the grammar of RFC 8259 (JsonSpec.v), then decoding by type, then inside fields. | …text_round_trip, …any_spelling, …query, …header, …path, …compact_header_carried, …pretty_header_not_carried, …pretty_path_unsafe, …reading_total (JsonProps.v) |
| C47 | Header names are case-insensitive for decoding | lower-casing forgets case and never yields upper case. | …case_insensitive, …upper_case_field_never_filled (FieldProps.v) |
| C48 | Calls do not hang when the pool is gone | transition system with the death of the pool as a step. | …waiting_calls_fail, …gone_for_good, …no_call_forgotten, …holders_as_alone, …alone_is_drive, …pool_irrelevant (PoolSystemProps.v) |
| C49 | Failed connection attempts are reported and recorded | events and commands counted and ordered over all traces; the pool's decisions from its history. | …reported_iff_failed, …reported_once, …failure_reported, …in_order, …suspended_turned_down, …turned_down_stays, …otherwise_served (PoolSystemProps.v) |
| C50 | A call from client to handler and back | C09, C19, C23, C28, C30 and C41 composed over any network that carries messages. | …call_end_to_end, …refused_end_to_end, …networks_exist (EndToEndProps.v) |
| C51 | Whatever arrives, decoded values are of the declared type | soundness of each deserializer against `has_ty` by induction on the type, with an invariant on the unread input; lifted to handlers and calls. | …request, …handlers, …response, …call, …json_text, …json_bytes (TypeProps.v) |
| C52 | Calls that share a connection each get their own answer | induction over the calls: the first write is the first request read, so the first reply is the first response read; the rest is the same session on what is left. C09, C19, C30, C41 inside. | …calls_in_turn, …served, …refused, …invalid, …networks_exist (SessionProps.v) |
| C53 | Exactly the JSON texts are read, and exactly the problem documents are accepted | soundness of the parser by induction on its fuel, next to the completeness of C46; inversion of the member loop for objects, case analysis for arrays. | …reads_exactly, …refuses_the_rest, …unambiguous, …problem_exactly, …body_taken, …other_bodies_ignored, …unread_body_is_500, …other_bodies_refused (ExactProps.v) |
| C54 | JSON is decoded as a type exactly as the document means it | induction on the type against the relation `means` of JsonTypeSpec.v; the member loop inverted and completed for any list of fields. | …tree_exactly, …text_exactly, …body_exactly, …field_exactly, …refuses_the_rest, …one_value (JsonTypeProps.v) |
| C55 | Requests are decoded exactly as URL and headers mean them | induction on the type for each part against the relations of DecodeSpec.v, on top of the per-part theorems; a structural pass shows that no error but Invalid arises without a self-describing type (DecodeProofs.v). | …path_exactly, …query_exactly, …header_exactly, …request_exactly, …refuses_the_rest, …one_value, …served (DecodeProps.v) |
| C56 | Responses are decoded exactly as status and headers mean them | mutual induction on types and variants; the name of a status is taken from the table of reason phrases in StatusSpec.v. | …response_exactly, …refuses_the_rest, …one_value, …call, …self_describing_status (DecodeProps.v, RefusalProps.v) |
| C57 | The JSON text of a value, exactly | Three-way case lemma by induction over values (refused with an odd key, or written as shown), uniqueness of the tree, and equality of the printers with the layout relation by induction over trees. | …tree_exactly, …refused_exactly, …compact_field, …pretty_field, …field_refused, …one_document, …problem_body (JsonWriteProps.v) |
| C58 | Every call ends, if the pool and the call are run and the network answers | An endless schedule of the pool system (PoolFairSpec): a call's state and its place in the pool's queue give a pair of numbers which no step raises; a turn of the pool (while it waits) or a poll of the call (afterwards) lowers it; well-founded induction. The conditions are shown necessary by two concrete schedules. | …fair_calls_end, …dropped_only_by_its_user, …dropping, …without_answers_refuted, …without_the_pool_refuted (PoolFairProps.v) |
| C59 | Request targets are written and read character by character as URLs are | Each writing relation of UrlSpec.v is shown equal to the corresponding function of the url crate's model by induction over the text, with the path invariant of UrlProofs; the reading relations are shown sound the same way and total (decidable cases), which gives the equivalence. | …request_target, …target_exact, …query_read, …target_read (UrlProps.v) |
| C60 | Numbers, texts, names and addresses mean what the other properties take them for | Uniqueness of numerals without leading zero by induction from the last digit; the decoder's single step is compared with the bit patterns case by case, the loops by induction on the bytes; the order of connections by cases. | …integers_written, …length_sent, …texts_written, …texts_read, …texts_read_leniently, …names, …headers_that_travel, …sameness, …connection_order (ElementProps.v) |
| C61 | With a fair executor every client is served and every request is answered; what one poll of the server may take | A finite version first: enough accept rounds and then enough rounds of the connection contain the conversation (from C30 and C32); endless fair schedules contain as many as wanted. Polls are expanded into rounds by induction on their bound. The condition for a poll to return is an inductive predicate proved equivalent by induction on the predicate and on the bound. | …clients_served, …clients_served_by_polls, …requests_answered, …requests_answered_by_polls, …poll_returns_iff, …accept_returns_iff, …greedy_client_refuted (ServerFairProps.v) |
| C62 | Every call through the pool gets the answer to its own request | Invariant over runs: on every connection that no call is talking on and somebody still holds, as many responses have been asked for as requests written; a call talking on a connection is the owner of the last request; proved by cases on the step with the counting of holders (C36), the inner call by induction on its poll. On the server's side the nth response answers the nth request read, by induction on the dialogue (C30). | …own_answer, …as_meant, …order_needed (PoolAnswerProps.v) |
| C63 | The pool beyond the range of its counter | A weaker invariant than C34's: both maps sorted, every entry of the LRU map has a connection under an equal key, no more connections than the size; it survives overwritten entries. The loop that drops connections then runs at most once. What becomes of the connections is a permutation carried along, seen through a view of the addresses that equal keys cannot tell apart. | …counter, …without_overflow_checks, …handed_out_once, …handed_out_to_its_address, …its_address_refuted (PoolWrapProps.v) |
| C64 | Maps as queries and headers | Stated of what the real serializer writes and the other side parses (WrittenSpec); writing is described by map_pairs of FieldSpec; reading by map_of; induction over the entries with distinct keys. | …query_map, …query_map_same_iff, …query_whole, …header_whole, …header_map, …header_map_never_same, …header_names_merge_refuted (MapProps.v) |
| C65 | A call through a pool is lost only for a cause | Invariant over runs relating every state of a call to the events behind it; the pool's end by the exact characterisation of its panics (C39, C63) applied to its history (C49). | …every_end_explained, …pool_lost, …well_pool_stays, …well_failures (PoolCauseProps.v) |
| C66 | Calls through a pool come to their own answer in the end | C62's invariant gives, for every response received in a poll, that it is the reply to the call's own request; C65 leaves as causes only encoding and decoding errors, which C50 excludes; C58 gives the end. | …own_response, …never_lost, …served_in_the_end (PoolServedProps.v) |
| C67 | What request targets of every form mean, and exactly which of them crash the connection's task | Each relation of TargetSpec.v (tail, path, authority, relative, target) is shown sound for the corresponding part of the url crate's model and total on visible texts; uniqueness and the equivalence follow. The crash characterisation composes it with C28. | …every_target, …one_meaning, …panics_iff, …refused_answered, …authority_form, …absolute_form (TargetProps.v) |
| C68 | No wake-up is lost: tasks polled only when woken still finish every call | The polls are instrumented with the future that said NotReady, and shown equal to the polls of PoolSystem.v after erasing it; the invariant is kept by every step (each call has at most one command in the queue); liveness reuses the measure of C58: whoever can help is awake. | …same_polls, …same_system, …no_lost_wakeup, …asleep_means_idle, …woken_calls_end, …without_wakeups_refuted, …connection_sleeps_on_its_future, …acceptor_sleeps_on_its_future (WakeProps.v) |
| C69 | The base URL for parsing targets is made once, without a data race, and used by every parse | Invariant over the states of the Once: outside, one thread in the closure, or complete with the cell written and known to every reader; the end of waiting by following the owner through its three steps. | …calls_use_the_base, …no_data_race, …made_once, …for_good, …calls_return, …without_a_base, …the_base_is_parsable (OnceProps.v) |
| C70 | Calls carried as bytes in pieces: every call gets its own answer, with nothing assumed but that bytes arrive in order | HttpBytes*.v: parsers as byte-by-byte automata; a head comes out of any pieces by induction on the pieces; then the sessions of C52 over such streams. | …request_read, …response_read, …body_read, …content_length, …calls_over_bytes, …streams_exist, …handled, …refused, …invalid, …cut_request, …cut_response, …cut_body, …request_fits, …response_fits (HttpBytesProps.v) |
| C71 | Exactly which well-formed calls are refused before routing: too many bytes, too many headers, characters the HTTP parser does not take | HttpBytesLimits.v, HttpTargets.v, HttpBytesCounter.v. | …too_big, …odd_target, …targets_clean, …every_call_is_answered_refuted (HttpBytesProps.v) |
| C72 | Exactly the ordinary headers travel; others can arrive as other headers or as another request | HttpBytesLimits.v (run_sound), HttpBytesCounter.v. | …delivered_iff, …delivered, …received_safe, …as_sent_or_not_at_all_refuted, …one_call_one_request_refuted, …target_given, …lines_before (HttpBytesProps.v, RequestLineProps.v) |
| C73 | Calls through a pool whose connections carry bytes: own response, never lost, served in the end | PoolBytes*.v: server side, the nth reply on a stream answers the nth request of it; client side, an invariant saying where on each stream the reader is; then the generic forms of C62, C65, C66. | …own_response, …own_answer, …never_lost, …served_in_the_end (PoolBytesProps.v) |
| C74 | One reply to each request of a connection if bodies are taken; a body that is left is read as requests | HttpBytesLeft*.v: the dialogue of a connection read against its bytes; a reply leaves the connection where the handler left it. | …one_reply_each, …body_taken_for_a_request (HttpBytesLeftProps.v) |
| C75 | A client and a server joined by bounded byte pipes answer every call, unless a handler answers before a long body has come | Duplex*.v: both ends and two pipes as one state; the states met are those by numbers of bytes written and read; a measure that every useful turn lowers. | …answers, …pipes, …no_deadlock, …all_answered, …readers_wait, …deadlock (DuplexProps.v) |
| C76 | What is made of a connection depends on its bytes alone, and nothing that comes later changes what was made of the earlier | Cuts*.v: reading a head and a body as functions of the bytes (exactly, not only forwards), carried through routing, handlers, draining and replies by a relation between the two connections, by induction on the rounds. | …request_read, …server, …readers, …leavers, …call (CutsProps.v) |
| C77 | The bytes of messages determine the messages, but not the procedure called | Meaning*.v: both messages are read from one connection holding the bytes; the readings are the same, hence the messages. | …one_request, …one_sequence, …one_response, …one_value, …one_answer, …bytes_name_the_procedure_refuted, …every_value_refuted (MeaningProps.v) |
| C78 | Connecting ends by its timeout, exactly then, and so does every call whose connection answers | Timeout*.v: labels with times; simulation by PoolSystem.v with the outcome of connecting foretold from the rest of the run; the measure of C58 with connecting counted once, left by the first poll after the timer ran out. | …exactly, …fair_calls_end, …as_without, …whole_call_refuted (TimeoutProps.v) |
| C79 | The order of headers, query parameters and JSON members does not matter, where they are read by name | Order*.v: from the exact meanings of C53 to C56, which depend on assignments as sets without repetition; induction over types for documents. | …request, …response, …document, …field, …problem, …unknown_parameter_refuted, …lone_value_refuted (OrderProps.v) |
| C80 | A connection costs at most one call | PoolCost*.v: from exclusive use (C36) and release only when finished (C38); holders of old connections only decrease. | …one_call_each, …counted, …after_restart, …kept_connections_work_refuted (PoolCostProps.v) |
| C81 | The addresses a pool keeps as suspended | PoolBlack*.v: the list is the deadline of every address, by induction over the history, without the bound on releases that C37 has; system level through the history of C49. | …exact, …bounded, …from_failed_calls, …forgotten_refuted (PoolBlackProps.v) |
| C82 | Messages between old and new versions of a type | newer versions as relations on types; pairs_mean, request_means and response_means of DecodeSpec are monotone in them; walk for unknown parameters | …new_server, …old_client, …new_client, …old_reader_headers, …old_client_variant, …old_server_query, …old_server_refuted (GrowProps.v) |
| C83 | JSON documents between versions of a type | readable_as and kept as relations; by induction on readable_as, what to_json writes means a kept value (means of JsonTypeSpec); too_new by induction | …text, …field, …too_new_refused, …by_position_refuted (JsonGrowProps.v) |
| C84 | Messages that do not say how long their body is | request_read and response_read give the head; the rest of an open stream never settles, that of a closed one is everything; conversation of two rounds | …not_answered, …at_most_one, …answered_at_end, …call_waits, …call_takes_all, …next_call_fails (UnframedProps.v) |
| C85 | The server carries nothing from one client to another | all_apart gives each connection by itself; conversation_follows (C76) compares conversations; served_rounds (C61) for the second theorem | …same_replies, …same_in_the_end (ApartProps.v) |
| C86 | A server polled only when woken serves every client | a flag added to the polls of ServerPoll.v; invariant: living implies due or noted; every task gets a round in the end, a round without effect where it is over or waits in vain; then served and replied_by of C61 | …same_polls, …no_lost_wakeup, …clients_served, …requests_answered (ServerWakeProps.v) |
| C87 | The server is a function of the bytes it is sent, and so is a call | head_exact and an exact lemma for bodies; replies accord; induction on requests; every request takes a byte, so the number of requests is no parameter; rounds and drive as in C76 | …server, …call, …calls (WholeProps.v) |
| C88 | Timers wake too: a call polled only when woken ends though connecting never does | WakeTimeout.v puts Timeout.v's clock under Wake.v's executor; the run is shown to be a run of C78, whose measure goes down when the call is polled after its timer. | …same_system, …no_lost_wakeup, …woken_calls_end, …without_timers_refuted (WakeTimeoutProps.v) |
| C89 | What the server keeps of the bytes that come: bounded by the buffer and the body in hand, but a refused body is kept whole | Footprint.v makes what has been read part of the state; a turn keeps replies-so-far plus replies-due equal to C87's function of the bytes, whatever comes later; the bound is an invariant of turns. | …kept, …same_server, …refused_bodies_kept, …bound_refuted (FootprintProps.v) |
| C90 | Entry points are what is written in the macro | EntryMacro.v; the accepted token lists are characterised exactly, the rest follows through C25. | …exact, …variables, …matches, …routed, …conflicts (EntryMacroProps.v) |
| C91 | A handler is run at most once for a request | Invoke.v: phase C split at handle_rpc, erased to Server.v round by round; what happens as a sequential program (happenings), reached and never exceeded; then by bytes as C87, and by requests. | …same_server, …happens, …after_read, …once, …by_bytes, …calls, …worth_once, …own_value (InvokeProps.v) |
| C92 | However calls share a pool, each is run at most once | PoolOnceProofs.v: which steps write, from polls of one call; PoolOnceIndex.v: the n-th response asked for on a connection is asked for by the n-th writer; PoolOnce.v: joined with C91 by counting. | …no_retry, …own_requests, …at_most_once, …answered_once (PoolOnceProps.v) |
| C93 | Whatever servers send, the calls over a connection get its responses in turn; these need not be answers to them | PoolTurn.v: an invariant of all connections: the calls that wrote on it have used up a prefix of its bytes, by the functions of C87; one poll, then the pool's steps as in C73 and C92. | …in_turn, …none_after, …asked_before_refuted (PoolTurnProps.v) |
| C94 | What a call keeps of the bytes that come is bounded by the buffer and the length of the body, and by nothing when there is no length | ClientFoot.v: the stages of a call with the bytes read so far in sight; what is still to come of the bytes is unchanged by every turn, by the functions of C87. | …kept, …same_call, …refused_bodies_kept, …bound_refuted (ClientFootProps.v) |
| C95 | The load that calls through a pool make: connections, openings and queued commands; the pool's size does not bound the connections | PoolLoad.v: counts over the calls; the pool's bound (C33) step by step in the system, openings against calls past connecting, commands against calls. | …alive, …opened_and_sent, …size_bounds_connections_refuted (PoolLoadProps.v) |
| C96 | A pool's addresses do not touch one another, but for the room | PoolApart.v: by C34 the pool is a list of idle connections; removing another address's commands commutes with taking from it and adding to it. | …isolated, …suspended_alone, …without_room_refuted (PoolApartProps.v) |
| C97 | What was decoded can be sent on | Relay.v: decoded values have their type (C51), values of these types survive (C09, C19); header values that were read are written back byte for byte. | …request, …numbers, …response, …any_string_refuted, …same_handler_refuted, …booleans_refuted, …any_status_refuted (RelayProps.v) |
| C98 | How many connections calls use up | Economy.v: invariant over the queue (what is held, asked for and on its way back fits at every request in it), over the connections that exist, and over those opened; each kept by every step. | …economy, …one_connection, …without_room_refuted, …with_aliases_refuted (EconomyProps.v) |
| C99 | What one more procedure does to the requests of the others | Growth.v: the walk over a table with one more entry, by induction over the path. | …served_by, …as_before_or_as_alone, …kept, …diverted, …constants_keep, …no_constant_no_loss, …other_method_refuted, …taken_unanswered_refuted (GrowthProps.v) |
| C100 | Exactly which tables of procedures lose no request | Clash.v: what diverts clashes, and where two clash one takes a request of the other; ClashCalls.v: C50 for such tables. | …exactly, …search, …wrong_method, …grows, …check, …calls, …clash_costs, …search_refuted (ClashProps.v) |
| C101 | Procedures added to a server change nothing for what they are not asked | Deploy.v: a connection that waits for a request waits for what it began to read; both servers make the same step from the same state. | …same_run, …added, …order, …conflict, …clash_refuted (DeployProps.v) |

## Trusted base

1. **Coq's kernel** (8.16.1) with its virtual machine (`vm_compute` is used in examples, refutations and table lookups).
   No axiom is declared. `Print Assumptions` after every theorem in the `*Props.v` files says
   "Closed under the global context". Only the standard library is imported. No `native_compute`, no plugins.
2. **The transcription** of src/ into the files listed below. Nothing was extracted or run; the source was read as text.
3. **The models of dependencies**, written from their documentation:
   * url 2 (DepUrl.v): `PathSegmentsMut::push`, `form_urlencoded`, `Url::options().base_url().parse()`, `query_pairs`,
     `path_segments`. Differences between releases and host and file syntax are left open (`urlenv`).
   * serde's derived impls and the std impls for tuples, `Vec`, maps, `Option` and strings (Serde.v).
   * serde_json through serdeconv: writer, pretty writer, parser with its nesting limit of 128, and typed decoding
     (Json.v, JsonText.v, JsonDe.v).
   * std: UTF-8, `to_string`/`parse` of integers, `BTreeMap`, `HashMap`, `SocketAddr` ordering (Utf8.v, Decimal.v, Pool.v).
   * miasht's status table, its `Content-Length` header, and its `Error` as it reaches src/error.rs (Status.v, Error.v).
   * futures 0.1 and handy_async's `Phase`: polls return ready, failed or not ready; a composed future runs its parts in order.
   * fibers' `timeout_after` (Timeout.v): each poll polls the future first and the timer after it; the timer takes note of the task then, and wakes it when its time has come (WakeTimeout.v);
   * fibers' channels (PoolSystem.v): `mpsc` is an unbounded queue that drops what is sent after the receiver is gone;
     `oneshot` holds one message and fails when its sender is gone. One poll is atomic. Wake.v adds what they wake: a send
     wakes a pool that found the channel empty; a reply, or the loss of its sender, wakes the call that found nothing.
   * miasht and httparse over TCP (HttpBytes.v, for C70-C77 only): HTTP/1.1 heads as bytes, limits on bytes and headers, bodies framed by
     Content-Length; a Content-Length that is given twice counts as none. Left open: which characters a target may have (`uri_byte`),
     whether blanks after a value are dropped (`trims`), the limits of the client's side. Left out: chunked bodies, HTTP/1.0.
     Of TCP only that bytes arrive in order; how they are cut and when they come is arbitrary. Duplex.v (C75) makes each direction a
     queue of bounded size: a write is taken as far as there is room, a read as far as there are bytes. There a handler is a function
     of the bytes that have come so far, asked again when more have come, and neither end closes the connection.
   * std's `Once` (Once.v): one thread runs the closure, others wait; completion makes the closure's effects visible.
4. **Laws assumed of parameters** (typeclass fields or explicit hypotheses, each inhabited by an instance in Exhibit.v,
   in a `*Props.v` file, or by `C50_networks_exist`):
   * `floatlib`: text of floats is ASCII (`fshow_ascii`). Nothing else; float round trips are a hypothesis on the value (`faithful`).
   * `httpenv`: a list of safe headers (token names; values of visible ASCII, inner spaces and tabs) is delivered unchanged
     (`deliver_safe`). Nothing is assumed of others. C72 proves this law of the byte-level parser.
   * `urlenv`, `jsonfloat`: no laws.
   * `honest` networks for the pool (PoolSystemSpec.v): an operation on a connection gives back that connection.
   * `carries_requests`, `carries_responses` for C50 (EndToEndSpec.v): what one side writes is what the other side reads.
   * `server_end`, `client_end`, `in_order` for C52 (SessionSpec.v): each direction of a connection is first in, first out, and reads and writes complete. `script_link`, `script_wire` show that there are such networks.
   * `reading`, `agrees`, `orderly` for C62 (PoolAnswerSpec.v): servers read requests of a connection in the order they were written on it, and the client reads responses in the order they were written; nothing need complete. `C62_case` shows such a network, `C62_order_needed` that the order is needed.
   * `untroubled` for C66 (PoolReceivedSpec.v): a hypothesis on what happened in the run (no begun operation failed, nobody dropped the pool, fewer than 2^64 connections given back if overflow is checked, order kept); `C66_case` meets it with an endless schedule. C65 has no such hypothesis.
   * `over_tcp` for C73 (PoolBytesSpec.v): bytes of a connection arrive in the order they were written, handlers take the body of a request and no more, messages fit the limits. No pairing of responses with requests is assumed. `C73_case` meets it.
5. **Parameters without laws**: `reason` (reason phrases), `explain` (texts taken from an error for a problem),
   `url_norm` (how a URL text in a problem is normalised, if it is one), `tmax` (largest `Instant`), `checks` (overflow checks on or off),
   the time `now` of each pool step, handlers and `read_body` of users (`hproc`), the incoming connections (`incoming`).

## What is modelled, file by file

| source | modelled in | not modelled |
|---|---|---|
| src/serializers/url_path.rs | SerPath.v | tests |
| src/serializers/url_query.rs | SerQuery.v | tests |
| src/serializers/http_header.rs | SerHeader.v | |
| src/serializers/rpc_request.rs | SerRequest.v | the connection inside the builder (Client.v carries it) |
| src/serializers/rpc_response.rs | SerResponse.v, Status.v, Server.v `serialize` | |
| src/deserializers/url_path.rs | DePath.v | tests |
| src/deserializers/url_query.rs | DeQuery.v | tests |
| src/deserializers/http_header.rs | DeHeader.v | |
| src/deserializers/rpc_request.rs | DeRequest.v | |
| src/deserializers/rpc_response.rs | DeResponse.v, Status.v | |
| src/procedure.rs | Procedure.v; traits as data in Client.v (`proc`) and Server.v (`hproc`) | `EntryPoint` doc examples; the static lifetime of segments |
| src/router.rs | Router.v | the hashing of the maps |
| src/misc.rs | DepUrl.v `parse_url`, Server.v; Once.v (the one-time initialisation, C69) | the texts of errors |
| src/server.rs | Server.v, ServerPoll.v, ServerWake.v, WakeServer.v, Duplex.v, Footprint.v (what is kept in memory); HttpBytes.v for the limits of line 151 | log messages; `set_nodelay` errors are part of the connecting future; address of the peer; a panicking task's effect on the executor |
| src/client.rs | Client.v, Wake.v, Duplex.v, ClientFoot.v (what is kept in memory) | debug output; polls after completion |
| src/pool.rs | Pool.v, PoolSystem.v, Wake.v, Timeout.v, WakeTimeout.v | the clocks (each step carries its times); in PoolSystem.v the connect timeout is part of the connecting future's outcome, in Timeout.v it is apart |
| src/error.rs | Error.v | messages and tracking history of errors |
| src/rfc7807.rs | Problem.v | |
| src/json.rs, src/json_pretty.rs | JsonField.v (on Json.v, JsonText.v, JsonDe.v) | texts of errors |
| src/msgpack.rs | Msgpack.v | MessagePack's own bytes: the field is refused before they matter |
| src/types.rs, */mod.rs | nothing to model (re-exports) | |
| src/lib.rs | `content_length` (lines 27-33): HttpBytes.v; the entry point macro (60-81): EntryMacro.v | type aliases and re-exports |

Simplifications inside a modelled function are stated in the comment of the definition.

OwnTests.v runs the project's own unit tests (the seven in src) in the model; all come out as their authors expect.

## Deviations found

Each is proved, either as a `_refuted` theorem or as an exact description.

* `true` is written as "ture" and refused by every reader (C13).
* Path variables outside ASCII are decoded as Latin-1, so non-ASCII path strings never survive (C02).
* Decoding a path as a tuple does not compare the constants after the last variable (C05).
* A request with a query but no path is refused, and one whose first field is `header` panics when the path has variables (C10, C11).
* An unknown query parameter's value is taken for the next key, so it can make the rest unreadable or fill a wrong field (C16), or let a repeated field through (C18).
* A request or response struct without a `header` field cannot be decoded from a message without headers (C09, C19).
* A procedure with an empty entry point, an entry point that begins with an empty constant, or a constant that the client
  escapes is never reached (C27). Routing does not backtrack from a constant to a variable (C23).
* MessagePack fields can never be written or read (C15); characters, units and enums can be written in paths but not read (C14).
* An optional status cannot be read back (C19), hence `ProblemResponse` cannot be used as a response type (C45).
* A newtype variant around a struct never arrives unchanged (C21).
* The target `mailto:x`, and every target `host:port` of CONNECT whose host begins with a letter, makes the server panic (C28, C67); and a response that cannot be serialized closes the connection unanswered (C28).
* A handler that sets its own `Content-Length` causes two of them to be written (C31).
* The suspension deadline can overflow and panic the pool (C39); IPv6 addresses that differ only in flow label or scope hide
  each other's idle connections (C40); an idle connection is lost when its call is dropped before its reply is read (C38).
  Built without overflow checks and after 2^64 releases, a connection to another IPv6 scope can be handed out (C63).
* An idle connection is handed out unchecked and a call that fails on it is not done again: after a restart of the server as many calls fail as
  connections were idle or in use (C80).
* A suspended address that is never asked for again is kept for ever (C81).
* An optional field added to a query can make a server that does not know it read another field wrongly; added headers are harmless (C82).
* A JSON struct may be given as an array; then adding or reordering fields of its type makes newer readers refuse it or mix up the fields (C83). htrpc itself never writes structs so.
* The name of status 417 is misspelt ("ExceptionFailed"), and the statuses 428, 429, 431 and 511 have no name, so such a response cannot be decoded as an
  enum (C20).
* There is no time limit on writing a request or reading a response: a peer that accepts and then says nothing holds a call for ever (C58).
* A poll of a connection or of the accept loop has no budget: a client who always has the next request ready keeps the thread (C61).
* A map used as the headers comes back with an entry for Content-Length, or is refused when a number is not one of its values;
  names that differ only in case are merged (C64). A map used as the query loses its absent values (C64).
* A replaced problem keeps the old status (C43). `json_pretty` in a header or path does not travel (C46).
* A request head of more than 8096 bytes, with more than 32 headers, or with a character in its target that httparse refuses (`|`, which the url
  crate leaves as it is in paths) ends the connection unanswered (C71).
* A `read_body` that leaves the body on the connection lets the sender hide a second request in it, whose reply the next call gets (C74).
* A handler that answers without reading a body larger than the buffers on the way, with an answer that is larger too, stops client and server for ever: neither reads while it writes (C75).
* A request without Content-Length, as other clients send for GET, is not answered before the client closes its side; a response without it, an interim response for
  example, holds a call until the server closes (C84; given that miasht reads a body without a length to the end of the stream).
* The body of a request that is refused (no such procedure, undecodable) is read into memory as a whole before the refusal is sent, however long it is (C89).
* Likewise a call reads the whole body of a response before it looks at status and headers, so that of a response it will refuse any number of bytes are kept, and one without a length is not refused before the connection is closed (C94).
* The size of a pool bounds the idle connections only: calls that go on at once have a connection each, however many they are (C95).
* Connections to one address push connections to another out of the pool; nothing else passes between addresses (C96).
* A connection is kept in the pool, and handed out again, without a look at what is left in its buffer. A peer that sends more than one response to a request decides what later calls over the connection come to, before they are made (C93).
* A request that was decoded is not always the same when it is sent on: strings in the path that are not ASCII change with every hop, `true` is refused at the next, and a number may go on to another handler than it came to (C97).
* Registering a procedure can take requests away from procedures that served them, also those of other methods, and leave them unanswered: after POST /users/import is added, GET /users/import is answered 405 though GET /users/<id> served it (C99; C100 says which tables this cannot happen to).
* Header texts are written unchecked: line ends in one make further headers or a further request (C72).

## Mutation tests

`seeded/LOG.jsonl` has one line per wrong program tried: the definition edited, the edit, the claim it breaks, the theorems
that failed, and the theorems tightened in response.
